(** The decoder on the bytes the encoder writes, when the value does not come
    back: what comes out is never another value (as long as [make] of a map
    panics on a negative size), and nothing that comes back has been longer on
    the wire than the minimal encoding. *)
From Coq Require Import ZArith List Bool Lia.
From Coq Require Import ZifyBool.
From Verif Require Import GoPrims Value PackSpec PrimLemmas Encoder EncoderProofs PackProofs
  Decoder DecoderProofs RoundTrip Framing CodecProofs CodecIO CodecRefute CodecOrder WireBytes.
Import ListNotations.
Open Scope Z_scope.

(** ** The fields of a received structure *)
Inductive reads (d : bytes -> dres goval) : list goval -> bytes -> bytes -> Prop :=
| rs_nil r : reads d [] r r
| rs_cons v fs r r1 r2 : d r = DOk v r1 -> reads d fs r1 r2 -> reads d (v :: fs) r r2.

(** Number of fields of the structures the decoder knows. *)
Definition arity (sig : Z) : option Z :=
  if sig =? 0x4E then Some 3 else if sig =? 0x52 then Some 5 else if sig =? 0x50 then Some 3
  else if sig =? 0x72 then Some 3 else if sig =? 0x71 then Some 1 else if sig =? 0x7F then Some 1
  else if sig =? 0x7E then Some 0 else if sig =? 0x70 then Some 1 else if sig =? 0x0E then Some 0
  else if sig =? 0x2F then Some 0 else if sig =? 0x3F then Some 0 else if sig =? 0x0F then Some 0 else None.

Lemma struct_reads d sig r u r' : struct_body d sig r = DOk u r' ->
  exists fs, reads d fs r r' /\ denote u = PStruct sig (map denote fs) /\ arity sig = Some (zlen fs).
Proof.
  unfold struct_body, arity. intros E.
  Ltac stepd E := match type of E with
    | dbind (?d ?b) _ = _ => let v := fresh "v" in let x := fresh "x" in let D := fresh "D" in
        destruct (d b) as [v x| | |] eqn:D; cbn [dbind] in E; try discriminate
    | as_int64 ?v _ = _ => destruct v as [| |[]| | | | | | | | | | | | | | | | | | | | | |]; cbn [as_int64] in E; try discriminate
    | as_str ?v _ = _ => destruct v; cbn [as_str] in E; try discriminate
    | as_map ?v _ = _ => destruct v; cbn [as_map] in E; try discriminate
    | as_slice ?v _ = _ => destruct v; cbn [as_slice] in E; try discriminate
    | match to_strings ?l with _ => _ end = _ => let T := fresh "T" in destruct (to_strings l) eqn:T; try discriminate;
        apply to_strings_spec in T; subst
    | match to_ints ?l with _ => _ end = _ => let T := fresh "T" in destruct (to_ints l) eqn:T; try discriminate;
        apply to_ints_spec in T; subst
    | (if forallb ?f ?l then _ else _) = _ => let T := fresh "T" in destruct (forallb f l) eqn:T; try discriminate
    end.
  Ltac fin E := injection E as <- <-; eexists; split;
    [repeat (eapply rs_cons; [eassumption|]); apply rs_nil
    |split; [cbn [map denote vint64]; rewrite ?map_map; reflexivity|reflexivity]].
  repeat match type of E with (if ?c =? ?k then _ else _) = _ => destruct (Z.eqb_spec c k) as [->|_];
    [try (cbv delta [Z.eqb] beta iota; cbn [Pos.eqb])|] end; try discriminate.
  all: repeat (stepd E).
  all: fin E.
Qed.

(** Maps without repeated keys; known structures with the number of fields they
    are read with. *)
Fixpoint pwf (p : pval) : Prop :=
  match p with
  | PList l => allP pwf l
  | PMap m => NoDup (map fst m) /\ allP (fun kv => pwf (snd kv)) m
  | PStruct sig l => match arity sig with Some n => zlen l = n | None => True end /\ allP pwf l
  | _ => True
  end.

(** Every map has a size that is read back as it is. *)
Fixpoint pmaps (p : pval) : Prop :=
  match p with
  | PList l => allP pmaps l
  | PMap m => sz_ok true (zlen m) /\ allP (fun kv => pmaps (snd kv)) m
  | PStruct _ l => allP pmaps l
  | _ => True
  end.

Lemma sz_cases n : sz_ok false n -> sz_ok true n \/ bad_size n.
Proof. unfold sz_ok, bad_size. lia. Qed.

Section Mk.
Variable mk : bool.
Local Notation dec := (dec mk). Local Notation dec_slice := (dec_slice mk).
Local Notation dec_n := (dec_n mk). Local Notation dec_map := (dec_map mk).
Local Notation dec_m := (dec_m mk). Local Notation dec_struct := (dec_struct mk).
Local Notation decode := (decode mk).

Lemma dec_pint f z r : - 2 ^ 63 <= z < 2 ^ 63 -> dec (S f) (pint z ++ r) = DOk (VInt KInt64 z) r.
Proof.
  intros H.
  assert (T : forall k m, 0 < k -> (forall x, dec (S f) (m :: x) = dbind (rd_int_scalar k x) (fun z r => DOk (VInt KInt64 z) r)) ->
    - 2 ^ (8 * k - 1) <= z < 2 ^ (8 * k - 1) -> dec (S f) ((m :: be (Z.to_nat k) z) ++ r) = DOk (VInt KInt64 z) r).
  { intros k m Hk HD Hz. cbn [app]. rewrite HD. rewrite (rd_int_TC k z) by (trivial; now apply TC_be). reflexivity. }
  unfold pint. destruct ((-16 <=? z) && (z <=? 127)) eqn:E1.
  - assert (E : exists m, be 1 z = [m] /\ 0 <= m < 256 /\ wraps 8 m = z).
    { exists (z mod 256). split.
      - rewrite <- (be_mod 1 z). change (256 ^ Z.of_nat 1) with 256. rewrite be1_tiny; [reflexivity|]. apply Z.mod_pos_bound. lia.
      - split; [apply Z.mod_pos_bound; lia|]. change 256 with (2 ^ 8). rewrite wraps_of_mod by lia. apply wraps_id; lia. }
    destruct E as (m & -> & Hm & W). cbn [app]. rewrite dec_S. cbv zeta. rewrite W, E1.
    assert (N : m < 0x80 \/ 0xF0 <= m).
    { destruct (Z.lt_ge_cases m 128); [now left|]. right. rewrite wraps_high in W by lia. change (2 ^ 8) with 256 in W. lia. }
    replace (m =? 192) with false by lia. replace (m =? 195) with false by lia. replace (m =? 194) with false by lia. reflexivity.
  - destruct ((- 2 ^ 7 <=? z) && (z <? 2 ^ 7)) eqn:E2; [apply (T 1 0xC8); [lia| |lia]; intros; now rewrite dec_S|].
    destruct ((- 2 ^ 15 <=? z) && (z <? 2 ^ 15)) eqn:E3; [apply (T 2 0xC9); [lia| |lia]; intros; now rewrite dec_S|].
    destruct ((- 2 ^ 31 <=? z) && (z <? 2 ^ 31)) eqn:E4; [apply (T 4 0xCA); [lia| |lia]; intros; now rewrite dec_S|].
    apply (T 8 0xCB); [lia| |lia]; intros; now rewrite dec_S.
Qed.

Lemma dec_pstr f s r u r' : sz_ok false (zlen s) -> dec f (pstr s ++ r) = DOk u r' ->
  sz_ok true (zlen s) /\ u = VStr s /\ r' = r.
Proof.
  intros H E. destruct f as [|f]; [discriminate|]. unfold pstr in E. rewrite <- app_assoc in E.
  destruct (sz_cases _ H) as [G|B].
  - rewrite (dec_str_hdr mk f (zlen s)) in E by now apply phdr_header. unfold next_str in E. pose proof (zlen_nonneg s).
    replace (zlen s <? 0) with false in E by lia. rewrite ztake_app, zdrop_app in E. injection E as <- <-. now split.
  - destruct (str_neg mk f (zlen s) (s ++ r) B) as (n & Hn & E'). rewrite E' in E. unfold next_str in E.
    replace (n <? 0) with true in E by lia. discriminate.
Qed.

(** Reading [n] entries adds at most [n] keys; if it adds [n], those read before stay as they are. *)
Lemma mput_cases {A} k (v : A) m : mput k v m = m ++ [(k, v)] \/ zlen (mput k v m) = zlen m.
Proof.
  induction m as [|[k' v'] m IH]; cbn [mput]; [now left|]. destruct (str_eqb k k'); [right; now zl|].
  destruct IH as [->|IH]; [now left|right]. zl. lia.
Qed.
Lemma dec_m_grows f : forall n acc b acc' r', 0 <= n -> dec_m f n acc b = DOk acc' r' ->
  zlen acc' <= zlen acc + n /\ (zlen acc' = zlen acc + n -> exists ext, acc' = acc ++ ext).
Proof.
  induction f as [|f IH]; intros n acc b acc' r' Hn E; [discriminate|]. rewrite dec_m_S in E.
  destruct (Z.leb_spec n 0).
  - injection E as <- <-. split; [lia|]. exists []. now rewrite app_nil_r.
  - destruct (dec f b) as [k r| | |]; cbn [dbind] in E; try discriminate.
    destruct (dec f r) as [v x| | |]; cbn [dbind] in E; try discriminate.
    destruct k; try discriminate. assert (Hn1 : 0 <= n - 1) by lia. destruct (IH _ _ _ _ _ Hn1 E) as [I1 I2].
    destruct (mput_cases s v acc) as [EP|EP].
    + rewrite EP in I1, I2. rewrite zlen_app, zlen_cons, zlen_nil in I1, I2. split; [lia|]. intros L. destruct I2 as [ext ->]; [lia|]. rewrite <- app_assoc. eexists. reflexivity.
    + rewrite EP in I1, I2. split; lia.
Qed.

(** No map whose size is read back as a negative number, where that would go unnoticed. *)
Definition guarded (p : pval) : Prop := mk = true \/ pmaps p.

Lemma guarded_list l : guarded (PList l) -> Forall guarded l.
Proof.
  intros [G|G]; [apply Forall_forall; intros; now left|]. cbn in G. rewrite allP_Forall in G. revert G. apply Forall_impl. now right.
Qed.
Lemma guarded_struct sig l : guarded (PStruct sig l) -> Forall guarded l.
Proof.
  intros [G|G]; [apply Forall_forall; intros; now left|]. cbn in G. rewrite allP_Forall in G. revert G. apply Forall_impl. now right.
Qed.
Lemma guarded_map m : guarded (PMap m) -> Forall (fun kv => guarded (snd kv)) m.
Proof.
  intros [G|G]; [apply Forall_forall; intros; now left|]. cbn in G. destruct G as [_ G]. rewrite allP_Forall in G. revert G. apply Forall_impl. now right.
Qed.

Definition exactly (p : pval) : Prop := forall f r u r', dec f (penc p ++ r) = DOk u r' ->
  (guarded p \/ denote u = p) -> denote u = p /\ pok true p /\ r' = r.

Lemma exact_n l : Forall exactly l -> forall f r us r',
  dec_n f (zlen l) (concat (map penc l) ++ r) = DOk us r' -> (Forall guarded l \/ map denote us = l) ->
  map denote us = l /\ Forall (pok true) l /\ r' = r.
Proof.
  induction 1 as [|p l Hp H IH]; intros f r us r' E C; (destruct f as [|f]; [discriminate|]); rewrite dec_n_S in E.
  - injection E as <- <-. repeat split. constructor.
  - zl. pose proof (zlen_nonneg l). replace (1 + zlen l <=? 0) with false in E by lia.
    cbn [map concat] in E. rewrite <- app_assoc in E.
    destruct (dec f (penc p ++ concat (map penc l) ++ r)) as [v x| | |] eqn:ED; cbn [dbind] in E; try discriminate.
    replace (1 + zlen l - 1) with (zlen l) in E by lia.
    destruct (dec_n f (zlen l) x) as [vs y| | |] eqn:EN; cbn [dbind] in E; try discriminate. injection E as <- <-.
    destruct (Hp _ _ _ _ ED) as (Ev & Pv & ->). { destruct C as [C|C]; [left; now inversion C|right]. cbn in C. now injection C. }
    destruct (IH _ _ _ _ EN) as (El & Pl & ->). { destruct C as [C|C]; [left; now inversion C|right]. cbn in C. now injection C. }
    cbn [map]. rewrite Ev, El. repeat split. now constructor.
Qed.

Lemma exact_reads l : Forall exactly l -> forall f fs r r', zlen fs = zlen l ->
  reads (dec f) fs (concat (map penc l) ++ r) r' -> (Forall guarded l \/ map denote fs = l) ->
  map denote fs = l /\ Forall (pok true) l /\ r' = r.
Proof.
  induction 1 as [|p l Hp H IH]; intros f fs r r' L R C.
  - zl. apply zlen_zero in L. subst. inversion R; subst. repeat split. constructor.
  - inversion R as [x E1 E2 E3|v fs' x r1 r2 ED R' E1 E2 E3]; subst; zl; [pose proof (zlen_nonneg l); lia|]. clear R. rename fs' into fs, R' into R.
    cbn [map concat] in ED. rewrite <- app_assoc in ED.
    destruct (Hp _ _ _ _ ED) as (Ev & Pv & ->). { destruct C as [C|C]; [left; now inversion C|right]. cbn in C. now injection C. }
    assert (L' : zlen fs = zlen l) by lia. destruct (IH _ _ _ _ L' R) as (El & Pl & ->). { destruct C as [C|C]; [left; now inversion C|right]. cbn in C. now injection C. }
    cbn [map]. rewrite Ev, El. repeat split. now constructor.
Qed.

Lemma exact_m m : Forall (fun kv => exactly (snd kv)) m -> Forall (fun kv => sz_ok false (zlen (fst kv))) m ->
  forall f acc r acc' r', NoDup (map fst acc ++ map fst m) ->
  dec_m f (zlen m) acc (concat (map (fun kv => pstr (fst kv) ++ penc (snd kv)) m) ++ r) = DOk acc' r' ->
  (Forall (fun kv => guarded (snd kv)) m \/ dmap acc' = dmap acc ++ m) ->
  dmap acc' = dmap acc ++ m /\ Forall (fun kv => sz_ok true (zlen (fst kv)) /\ pok true (snd kv)) m /\ r' = r.
Proof.
  induction 1 as [|[k p] m Hp H IH]; intros Z f acc r acc' r' ND E C; (destruct f as [|f]; [discriminate|]); rewrite dec_m_S in E.
  - injection E as <- <-. rewrite app_nil_r. repeat split. constructor.
  - inversion Z as [|? ? Zk Zm]; subst. cbn [fst snd] in *. zl. pose proof (zlen_nonneg m).
    replace (1 + zlen m <=? 0) with false in E by lia. cbn [map concat fst snd] in E. rewrite <- !app_assoc in E.
    destruct (dec f _) as [kv x| | |] eqn:EK in E; cbn [dbind] in E; try discriminate.
    destruct (dec_pstr _ _ _ _ _ Zk EK) as (Sk & -> & ->).
    destruct (dec f _) as [v y| | |] eqn:EV in E; cbn [dbind] in E; try discriminate.
    replace (1 + zlen m - 1) with (zlen m) in E by lia.
    rewrite mput_fresh in E.
    2:{ cbn [map fst] in ND. apply NoDup_remove_2 in ND. rewrite in_app_iff in ND. tauto. }
    destruct (Hp _ _ _ _ EV) as (Ev & Pv & ->).
    { destruct C as [C|C]; [left; now inversion C|right]. destruct (dec_m_grows _ _ _ _ _ _ (zlen_nonneg m) E) as [_ G].
      destruct G as [ext ->].
      - apply (f_equal zlen) in C. unfold dmap in C. rewrite zlen_app, !zlen_map, zlen_cons in C. rewrite zlen_app, zlen_cons, zlen_nil. unfold str, bytes in *. lia.
      - unfold dmap in C. rewrite !map_app, <- app_assoc in C. apply app_inv_head in C. cbn in C. now injection C. }
    assert (ND' : NoDup (map fst (acc ++ [(k, v)]) ++ map fst m)) by (rewrite map_app, <- app_assoc; exact ND). destruct (IH Zm _ _ _ _ _ ND' E) as (Em & Pm & ->).
    { destruct C as [C|C]; [left; now inversion C|right]. rewrite C. unfold dmap. rewrite map_app, <- app_assoc. cbn. now rewrite Ev. }
    split; [|split; [|reflexivity]].
    + rewrite Em. unfold dmap. rewrite map_app, <- app_assoc. cbn. now rewrite Ev.
    + constructor; [now split|assumption].
Qed.

Lemma dec_exact p : pok false p -> pwf p -> exactly p.
Proof.
  induction p as [|b|z|b|s|l IH|m IH|sig l IH] using pval_nind; cbn [pok pwf]; intros OK WF f r u r' E C;
    (destruct f as [|f]; [discriminate|]).
  - injection E as <- <-. now repeat split.
  - destruct b; injection E as <- <-; now repeat split.
  - cbn [penc] in E. rewrite dec_pint in E by assumption. injection E as <- <-. now repeat split.
  - cbn [penc app] in E. rewrite dec_S in E. cbv zeta beta iota in E.
    change (dec (S f) (193 :: be 8 b ++ r)) with (dbind (rd_scalar 8 (be 8 b ++ r)) (fun x r => DOk (VF64 (ube x)) r)) in E.
    cbn -[rd_scalar be ube] in E.
    assert (B : BE 8 b (be 8 b)) by (apply (BE_small 8); [lia|rewrite pow256 by lia; lia]).
    rewrite rd_scalar_app in E by (try lia; apply (BE_len _ _ _ B)). cbn [dbind] in E. rewrite (BE_ube _ _ _ B) in E.
    injection E as <- <-. now repeat split.
  - destruct (dec_pstr _ _ _ _ _ OK E) as (S & -> & ->). now repeat split.
  - destruct OK as [OL OK]. rewrite allP_Forall in OK, WF. cbn [penc] in E. rewrite <- app_assoc in E.
    assert (X : Forall exactly l).
    { rewrite Forall_forall in *. intros x Hx. apply IH; auto. }
    destruct (sz_cases _ OL) as [G|B].
    + rewrite (dec_list_hdr mk f (zlen l)) in E by now apply phdr_header. destruct f as [|f]; [discriminate|]. rewrite dec_slice_S in E.
      pose proof (zlen_nonneg l). replace (zlen l <? 0) with false in E by lia.
      destruct (dec_n f _ _) as [us y| | |] eqn:EN in E; cbn [dbind] in E; try discriminate. injection E as <- <-.
      destruct (exact_n l X _ _ _ _ EN) as (El & Pl & ->). { destruct C as [C|C]; [left; now apply guarded_list|right]. cbn in C. now injection C. }
      cbn [denote pok]. rewrite El. repeat split; trivial. now apply allP_Forall.
    + destruct (list_neg mk f (zlen l) (concat (map penc l) ++ r) B) as (n & Hn & E'). rewrite E' in E.
      destruct f as [|f]; [discriminate|]. rewrite dec_slice_S in E. replace (n <? 0) with true in E by lia. discriminate.
  - destruct OK as [OL OK], WF as [ND WF]. rewrite allP_Forall in OK, WF. cbn [penc] in E. rewrite <- app_assoc in E.
    assert (X : Forall (fun kv => exactly (snd kv)) m).
    { rewrite Forall_forall in *. intros x Hx. apply IH; trivial; [now apply OK|now apply WF]. }
    assert (K : Forall (fun kv : str * pval => sz_ok false (zlen (fst kv))) m).
    { revert OK. apply Forall_impl. now intros ? []. }
    destruct (sz_cases _ OL) as [G|B].
    + rewrite (dec_map_hdr mk f (zlen m)) in E by now apply phdr_header. destruct f as [|f]; [discriminate|]. rewrite dec_map_S in E.
      pose proof (zlen_nonneg m). replace (zlen m <? 0) with false in E by lia. cbn [andb] in E.
      destruct (dec_m f _ _ _) as [us y| | |] eqn:EN in E; cbn [dbind] in E; try discriminate. injection E as <- <-.
      destruct (exact_m m X K _ [] _ _ _ ND EN) as (El & Pl & ->). { destruct C as [C|C]; [left; now apply guarded_map|right]. cbn in C. now injection C. }
      cbn [denote pok]. fold (dmap us). rewrite El. repeat split; trivial. now apply allP_Forall.
    + destruct (map_neg mk f (zlen m) (concat (map (fun kv => pstr (fst kv) ++ penc (snd kv)) m) ++ r) B) as (n & Hn & E').
      rewrite E' in E. destruct f as [|f]; [discriminate|]. rewrite dec_map_S in E. replace (n <? 0) with true in E by lia. cbn [andb] in E.
      destruct mk eqn:Emk; [discriminate|].
      destruct C as [[C|[C _]]|C]; [congruence|unfold sz_ok, bad_size in *; lia|].
      destruct f as [|f]; [discriminate|]. rewrite dec_m_S in E. replace (n <=? 0) with true in E by lia. cbn [dbind] in E.
      injection E as <- <-. cbn in C. injection C as <-. unfold bad_size in B. cbn in B. lia.
  - destruct OK as (OS & OL & OK), WF as [WA WF]. rewrite allP_Forall in OK, WF. cbn [penc] in E. rewrite <- app_assoc in E.
    assert (X : Forall exactly l).
    { rewrite Forall_forall in *. intros x Hx. apply IH; auto. }
    pose proof (zlen_nonneg l). rewrite (dec_struct_hdr mk f (zlen l)) in E by (apply phdr_struct; lia).
    destruct f as [|f]; [discriminate|]. cbn [app] in E. rewrite dec_struct_S in E.
    destruct (struct_reads _ _ _ _ _ E) as (fs & R & Eu & Ea). rewrite Ea in WA.
    destruct (exact_reads l X _ _ _ _ (eq_sym WA) R) as (El & Pl & ->).
    { destruct C as [C|C]; [left; now apply (guarded_struct sig)|right]. rewrite Eu in C. now injection C. }
    rewrite Eu, El. cbn [pok]. repeat split; trivial. 1,2: apply OS. now apply allP_Forall.
Qed.

(** ** A value received takes at least its minimal encoding *)
Definition plens (l : list pval) : Z := zlen (concat (map penc l)).
Definition pentries (m : list (str * pval)) : Z := zlen (concat (map (fun kv => pstr (fst kv) ++ penc (snd kv)) m)).

Definition hlen (n : Z) : Z := if n <=? 15 then 1 else if n <=? 255 then 2 else if n <=? 65535 then 3 else 5.
Lemma hlen_mono a b : a <= b -> hlen a <= hlen b.
Proof.
  intros H. unfold hlen. destruct (Z.leb_spec a 15), (Z.leb_spec b 15), (Z.leb_spec a 255), (Z.leb_spec b 255),
    (Z.leb_spec a 65535), (Z.leb_spec b 65535); lia.
Qed.
Lemma hlen_small n : (n <= 15 -> hlen n = 1) /\ (n <= 255 -> hlen n <= 2) /\ (n <= 65535 -> hlen n <= 3) /\ 1 <= hlen n <= 5.
Proof.
  unfold hlen. destruct (Z.leb_spec n 15), (Z.leb_spec n 255), (Z.leb_spec n 65535); lia.
Qed.
Lemma phdr_len tiny m8 m16 m32 n : zlen (phdr tiny m8 m16 m32 n) = hlen n.
Proof. unfold phdr, hlen. destruct (n <=? 15), (n <=? 255), (n <=? 65535); zl; rewrite ?zlen_be; reflexivity. Qed.
Lemma pint_len_z z : (-16 <= z <= 127 -> zlen (pint z) = 1) /\ (- 2 ^ 7 <= z < 2 ^ 7 -> zlen (pint z) <= 2) /\
  (- 2 ^ 15 <= z < 2 ^ 15 -> zlen (pint z) <= 3) /\ (- 2 ^ 31 <= z < 2 ^ 31 -> zlen (pint z) <= 5) /\ zlen (pint z) <= 9.
Proof.
  unfold pint. destruct ((-16 <=? z) && (z <=? 127)) eqn:?, ((- 2 ^ 7 <=? z) && (z <? 2 ^ 7)) eqn:?,
    ((- 2 ^ 15 <=? z) && (z <? 2 ^ 15)) eqn:?, ((- 2 ^ 31 <=? z) && (z <? 2 ^ 31)) eqn:?; zl; rewrite ?zlen_be; lia.
Qed.
Lemma pentries_app a b : pentries (a ++ b) = pentries a + pentries b.
Proof. unfold pentries. rewrite map_app, concat_app. now zl. Qed.
Lemma pentries_cons k p m : pentries ((k, p) :: m) = zlen (pstr k) + zlen (penc p) + pentries m.
Proof. unfold pentries. cbn [map concat fst snd]. zl. lia. Qed.
Lemma plens_cons p l : plens (p :: l) = zlen (penc p) + plens l.
Proof. unfold plens. cbn [map concat]. now zl. Qed.
Lemma pentries_put k v m : pentries (dmap (mput k v m)) <= pentries (dmap m) + zlen (pstr k) + zlen (penc (denote v)).
Proof.
  induction m as [|[k' v'] m IH]; cbn [mput].
  - cbn [dmap map fst snd]. rewrite pentries_cons. unfold pentries. cbn. lia.
  - destruct (str_eqb k k') eqn:E; cbn [dmap map fst snd]; rewrite !pentries_cons.
    + apply str_eqb_eq in E. subst k'. pose proof (zlen_nonneg (penc (denote v'))). pose proof (zlen_nonneg (pstr k)). lia.
    + fold (dmap m). fold (dmap (mput k v m)). lia.
Qed.

Lemma rd_int_ok k b z r : 0 < k -> rd_int k b = DOk z r -> z < 2 ^ (8 * k - 1) /\ - 2 ^ (8 * k - 1) <= z /\ zlen b = k + zlen r.
Proof.
  intros Hk. unfold rd_int, rd. destruct (Z.ltb_spec (zlen b) k); [discriminate|]. cbn [dbind]. intros E. injection E as <- <-.
  rewrite zlen_zdrop by lia. unfold sbe. rewrite zlen_ztake by lia. rewrite Z.min_l by lia.
  pose proof (wraps_range (8 * k) (ube (ztake k b)) ltac:(lia)). lia.
Qed.
Lemma rd_int_scalar_ok k b z r : 0 < k -> rd_int_scalar k b = DOk z r ->
  z < 2 ^ (8 * k - 1) /\ - 2 ^ (8 * k - 1) <= z /\ zlen b = k + zlen r.
Proof. intros Hk. unfold rd_int_scalar, rd_scalar. destruct (zlen b =? 0); [discriminate|]. now apply rd_int_ok. Qed.
Lemma rd_scalar_ok k b x r : 0 < k -> rd_scalar k b = DOk x r -> zlen b = k + zlen r.
Proof.
  intros Hk. unfold rd_scalar, rd. destruct (zlen b =? 0); [discriminate|]. destruct (Z.ltb_spec (zlen b) k); [discriminate|].
  intros E. injection E as <- <-. rewrite zlen_zdrop by lia. lia.
Qed.
Lemma next_str_min n b u r : next_str n b = DOk u r -> exists s, u = VStr s /\ zlen s <= n /\ zlen s + zlen r = zlen b.
Proof.
  unfold next_str. destruct (Z.ltb_spec n 0); [discriminate|]. intros E. injection E as <- <-. eexists. split; [reflexivity|].
  rewrite zlen_ztake, zlen_zdrop by lia. lia.
Qed.

Lemma reads_min d : (forall b u r, d b = DOk u r -> zlen (penc (denote u)) + zlen r <= zlen b) ->
  forall fs b r, reads d fs b r -> plens (map denote fs) + zlen r <= zlen b.
Proof.
  intros H fs b r R. induction R as [r|v fs r r1 r2 E R IH]; [unfold plens; cbn; lia|].
  cbn [map]. rewrite plens_cons. specialize (H _ _ _ E). lia.
Qed.

Lemma dec_min f :
  (forall b u r, dec f b = DOk u r -> zlen (penc (denote u)) + zlen r <= zlen b) /\
  (forall n b u r, dec_slice f n b = DOk u r -> exists l, u = VSlice l /\ zlen l = n /\ plens (map denote l) + zlen r <= zlen b) /\
  (forall n b l r, dec_n f n b = DOk l r -> zlen l = Z.max 0 n /\ plens (map denote l) + zlen r <= zlen b) /\
  (forall n b u r, dec_map f n b = DOk u r -> exists m, u = VMap m /\ zlen m <= Z.max 0 n /\ pentries (dmap m) + zlen r <= zlen b) /\
  (forall n acc b m r, dec_m f n acc b = DOk m r ->
     zlen m <= zlen acc + Z.max 0 n /\ pentries (dmap m) + zlen r <= pentries (dmap acc) + zlen b) /\
  (forall b u r, dec_struct f b = DOk u r -> 1 + zlen (penc (denote u)) + zlen r <= 2 + zlen b /\ zlen (penc (denote u)) + zlen r <= 1 + zlen b).
Proof.
  induction f as [|f (I1 & I2 & I3 & I4 & I5 & I6)]; [repeat split; intros; discriminate|].
  split; [|split; [|split; [|split; [|split]]]].
  - intros b u r E. rewrite dec_S in E. destruct b as [|m b]; [discriminate|]. cbv zeta in E. zl.
    assert (RI : forall k (g : Z -> bytes -> dres goval), 0 < k -> dbind (rd_int k b) g = DOk u r ->
      exists n x, n < 2 ^ (8 * k - 1) /\ zlen b = k + zlen x /\ g n x = DOk u r).
    { intros k g Hk EB. destruct (rd_int k b) as [n x| | |] eqn:ER; cbn [dbind] in EB; try discriminate.
      apply rd_int_ok in ER; [|assumption]. exists n, x. split; [lia|]. split; [lia|assumption]. }
    assert (IN : forall k, 0 < k -> dbind (rd_int_scalar k b) (fun z r => DOk (VInt KInt64 z) r) = DOk u r ->
      exists z, u = VInt KInt64 z /\ - 2 ^ (8 * k - 1) <= z < 2 ^ (8 * k - 1) /\ zlen b = k + zlen r).
    { intros k Hk EB. destruct (rd_int_scalar k b) as [n x| | |] eqn:ER; cbn [dbind] in EB; try discriminate.
      apply rd_int_scalar_ok in ER; [|assumption]. injection EB as <- <-. exists n. split; [reflexivity|]. lia. }
    assert (ST : forall n x hl, next_str n x = DOk u r -> zlen b = hl + zlen x -> zlen (phdr 0x80 0xD0 0xD1 0xD2 n) <= 1 + hl ->
      zlen (penc (denote u)) + zlen r <= 1 + zlen b).
    { intros n x hl EN L HL. apply next_str_min in EN. destruct EN as (s & -> & H1 & H2). cbn [denote penc]. unfold pstr. zl.
      rewrite !phdr_len in *. pose proof (hlen_mono _ _ H1). lia. }
    assert (SL : forall n x hl, dec_slice f n x = DOk u r -> zlen b = hl + zlen x -> zlen (phdr 0x90 0xD4 0xD5 0xD6 n) <= 1 + hl ->
      zlen (penc (denote u)) + zlen r <= 1 + zlen b).
    { intros n x hl EN L HL. apply I2 in EN. destruct EN as (l & -> & H1 & H2). cbn [denote penc]. zl. unfold plens in H2.
      rewrite !phdr_len in *. subst n. lia. }
    assert (SM : forall n x hl, dec_map f n x = DOk u r -> zlen b = hl + zlen x -> 0 <= hl -> (n <= 15 \/ zlen (phdr 0xA0 0xD8 0xD9 0xDA n) <= 1 + hl) ->
      zlen (penc (denote u)) + zlen r <= 1 + zlen b).
    { intros n x hl EN L H0 HL. apply I4 in EN. destruct EN as (l & -> & H1 & H2). cbn [denote penc]. fold (dmap l). zl. unfold pentries in H2.
      rewrite !phdr_len in *. unfold dmap in *. rewrite zlen_map in *. pose proof (hlen_mono _ _ H1).
      pose proof (hlen_small n). pose proof (hlen_small (Z.max 0 n)). destruct (Z.le_gt_cases n 15); [lia|].
      replace (Z.max 0 n) with n in * by lia. lia. }
    repeat match type of E with (if ?c then _ else _) = _ => destruct c eqn:? end; try discriminate;
      try (injection E as <- <-; cbn [denote penc]; zl; lia).
    + injection E as <- <-. cbn [denote penc]. pose proof (pint_len_z (wraps 8 m)). lia.
    + destruct (IN 1 ltac:(lia) E) as (z & -> & Hz & L). cbn [denote penc]. pose proof (pint_len_z z). lia.
    + destruct (IN 2 ltac:(lia) E) as (z & -> & Hz & L). cbn [denote penc]. pose proof (pint_len_z z). lia.
    + destruct (IN 4 ltac:(lia) E) as (z & -> & Hz & L). cbn [denote penc]. pose proof (pint_len_z z). lia.
    + destruct (IN 8 ltac:(lia) E) as (z & -> & Hz & L). cbn [denote penc]. pose proof (pint_len_z z). lia.
    + destruct (rd_scalar 8 b) as [x y| | |] eqn:ER; cbn [dbind] in E; try discriminate. apply rd_scalar_ok in ER; [|lia].
      injection E as <- <-. cbn [denote penc]. zl. rewrite zlen_be. lia.
    + injection E as <- <-. cbn. lia.
    + apply (ST _ _ 0 E); [lia|]. rewrite phdr_len. match goal with |- hlen ?n <= _ => pose proof (hlen_small n) end. lia.
    + destruct (RI 1 _ ltac:(lia) E) as (n & x & Hn & L & E'). apply (ST _ _ 1 E'); [lia|]. rewrite phdr_len. match goal with |- hlen ?n <= _ => pose proof (hlen_small n) end. lia.
    + destruct (RI 2 _ ltac:(lia) E) as (n & x & Hn & L & E'). apply (ST _ _ 2 E'); [lia|]. rewrite phdr_len. match goal with |- hlen ?n <= _ => pose proof (hlen_small n) end. lia.
    + destruct (RI 4 _ ltac:(lia) E) as (n & x & Hn & L & E'). apply (ST _ _ 4 E'); [lia|]. rewrite phdr_len. match goal with |- hlen ?n <= _ => pose proof (hlen_small n) end. lia.
    + apply (SL _ _ 0 E); [lia|]. rewrite phdr_len. match goal with |- hlen ?n <= _ => pose proof (hlen_small n) end. lia.
    + destruct (RI 1 _ ltac:(lia) E) as (n & x & Hn & L & E'). apply (SL _ _ 1 E'); [lia|]. rewrite phdr_len. match goal with |- hlen ?n <= _ => pose proof (hlen_small n) end. lia.
    + destruct (RI 2 _ ltac:(lia) E) as (n & x & Hn & L & E'). apply (SL _ _ 2 E'); [lia|]. rewrite phdr_len. match goal with |- hlen ?n <= _ => pose proof (hlen_small n) end. lia.
    + destruct (RI 4 _ ltac:(lia) E) as (n & x & Hn & L & E'). apply (SL _ _ 4 E'); [lia|]. rewrite phdr_len. match goal with |- hlen ?n <= _ => pose proof (hlen_small n) end. lia.
    + apply (SM _ _ 0 E); [lia|lia|]. lia.
    + destruct (RI 1 _ ltac:(lia) E) as (n & x & Hn & L & E'). apply (SM _ _ 1 E'); [lia|lia|]. right. rewrite phdr_len. match goal with |- hlen ?n <= _ => pose proof (hlen_small n) end. lia.
    + destruct (RI 2 _ ltac:(lia) E) as (n & x & Hn & L & E'). apply (SM _ _ 2 E'); [lia|lia|]. right. rewrite phdr_len. match goal with |- hlen ?n <= _ => pose proof (hlen_small n) end. lia.
    + destruct (RI 4 _ ltac:(lia) E) as (n & x & Hn & L & E'). apply (SM _ _ 4 E'); [lia|lia|]. right. rewrite phdr_len. match goal with |- hlen ?n <= _ => pose proof (hlen_small n) end. lia.
    + apply I6 in E. lia.
    + destruct (RI 1 _ ltac:(lia) E) as (n & x & Hn & L & E'). apply I6 in E'. lia.
    + destruct (RI 2 _ ltac:(lia) E) as (n & x & Hn & L & E'). apply I6 in E'. lia.
  - intros n b u r E. rewrite dec_slice_S in E. destruct (Z.ltb_spec n 0); [discriminate|].
    destruct (dec_n f n b) as [l x| | |] eqn:EN; cbn [dbind] in E; try discriminate. injection E as <- <-.
    apply I3 in EN. exists l. split; [reflexivity|]. lia.
  - intros n b l r E. rewrite dec_n_S in E. destruct (Z.leb_spec n 0).
    + injection E as <- <-. unfold plens. cbn. lia.
    + destruct (dec f b) as [v x| | |] eqn:ED; cbn [dbind] in E; try discriminate.
      destruct (dec_n f (n - 1) x) as [vs y| | |] eqn:EN; cbn [dbind] in E; try discriminate. injection E as <- <-.
      apply I1 in ED. apply I3 in EN. cbn [map]. rewrite plens_cons. zl. lia.
  - intros n b u r E. rewrite dec_map_S in E. destruct ((n <? 0) && mk); [discriminate|].
    destruct (dec_m f n [] b) as [m x| | |] eqn:EN; cbn [dbind] in E; try discriminate. injection E as <- <-.
    apply I5 in EN. exists m. split; [reflexivity|]. unfold pentries at 2 in EN. cbn [dmap map concat] in EN. zl. lia.
  - intros n acc b m r E. rewrite dec_m_S in E. destruct (Z.leb_spec n 0).
    + injection E as <- <-. lia.
    + destruct (dec f b) as [k x| | |] eqn:EK; cbn [dbind] in E; try discriminate.
      destruct (dec f x) as [v y| | |] eqn:EV; cbn [dbind] in E; try discriminate.
      destruct k; try discriminate. apply I1 in EK, EV. apply I5 in E. cbn [denote penc] in EK.
      pose proof (pentries_put s v acc). destruct (mput_cases s v acc) as [EP|EP].
      * assert (zlen (mput s v acc) = zlen acc + 1) by (rewrite EP; rewrite zlen_app, zlen_cons, zlen_nil; lia). lia.
      * lia.
  - intros b u r E. destruct b as [|sig b]; [discriminate|]. rewrite dec_struct_S in E.
    destruct (struct_reads _ _ _ _ _ E) as (fs & R & -> & A).
    apply (reads_min _ I1) in R. cbn [penc]. zl. rewrite phdr_len. unfold plens in R. zl.
    assert (zlen fs <= 15).
    { unfold arity in A. repeat match type of A with (if ?c then _ else _) = _ => destruct c end; try discriminate;
        injection A as <-; lia. }
    pose proof (hlen_small (zlen fs)). lia.
Qed.

Lemma decode_min b u r : decode b = DOk u r -> zlen (penc (denote u)) <= zlen b.
Proof. intros E. apply (proj1 (dec_min _)) in E. pose proof (zlen_nonneg r). lia. Qed.
End Mk.

(** ** A message too long for its last chunk arrives shortened *)
Lemma overlong_shorter cs ws m rest : 1 <= cs <= 65535 -> 65536 <= zlen (backlog cs ws) ->
  Receives (framed cs ws) m rest -> zlen m < zlen (concat ws).
Proof.
  intros Hcs HB (w & E & chs & HC & <-).
  destruct (chunk_spec cs ws ltac:(lia) [] _ _ (surjective_pairing _)) as (pre & F & Eo & Em).
  cbn [app] in Em. fold (backlog cs ws) in Em. unfold framed in E. rewrite Eo in E. rewrite Em. zl.
  clear Em Eo.
  assert (FL : concat (flush (backlog cs ws)) = be 2 (zlen (backlog cs ws)) ++ backlog cs ws ++ [0; 0]).
  { unfold flush. replace (0 <? zlen (backlog cs ws)) with true by lia. cbn [concat app]. reflexivity. }
  rewrite FL in E. clear FL. set (bl := backlog cs ws) in *. clearbody bl. clear ws.
  revert w chs HC E. induction F as [|c pre Hc F IH]; intros w chs HC E.
  - unfold wire_of in E. cbn [map concat app] in E. cbn [concat]. zl.
    destruct HC as [|c h chs w Hc Hh HC]; [cbn; lia|].
    rewrite <- !app_assoc in E. apply app_len_inv in E; [|rewrite zlen_be, (BE_len _ _ _ Hh); reflexivity].
    destruct E as [<- E]. assert (Lc : zlen c = zlen bl mod 65536).
    { destruct Hh as (_ & _ & V). rewrite be_value_be in V. change (256 ^ Z.of_nat 2) with 65536 in V. lia. }
    destruct (Chunks_len _ _ HC) as [LW FC]. apply (f_equal zlen) in E. zl.
    pose proof (Z.mod_pos_bound (zlen bl) 65536 ltac:(lia)).
    cbn [concat]. zl. pose proof (zlen_nonneg rest).
    destruct chs as [|c2 chs]; [cbn in *; lia|]. zl. pose proof (zlen_nonneg chs). lia.
  - unfold wire_of in E. cbn [map concat] in E. fold (wire_of pre) in E. rewrite <- !app_assoc in E.
    destruct HC as [|c' h chs w Hc' Hh HC]; cbn [concat]; zl.
    + pose proof (zlen_nonneg c). pose proof (zlen_nonneg (concat pre)). cbn. lia.
    + rewrite <- !app_assoc in E. apply app_len_inv in E; [|rewrite zlen_be, (BE_len _ _ _ Hh); reflexivity].
      destruct E as [Eh E]. assert (Lc : zlen c' = zlen c).
      { destruct Hh as (_ & _ & V). rewrite <- Eh, be_value_be in V. change (256 ^ Z.of_nat 2) with 65536 in V.
        rewrite Z.mod_small in V by lia. lia. }
      apply app_len_inv in E; [|lia]. destruct E as [<- E]. specialize (IH _ _ HC E). lia.
Qed.

(** ** Values *)
Lemma fields_canon v sig fs : structure_of v = Some (sig, fs) -> decodable (canon v) -> wt (canon v) ->
  Forall (fun x => decodable (canon x) /\ wt (canon x)) fs.
Proof.
  assert (ST : forall ls, Forall bytes_ok ls -> decodable (VSlice (map canon (map vstr ls))) /\ wt (VSlice (map canon (map vstr ls)))).
  { intros ls H. rewrite map_map. split; constructor; rewrite Forall_map; rewrite Forall_forall in *; intros s Hs; constructor; auto. }
  assert (SI : forall ls, Forall (fun z => krange KInt z = true) ls ->
    decodable (VSlice (map canon (map vint ls))) /\ wt (VSlice (map canon (map vint ls)))).
  { intros ls H. rewrite map_map. split; constructor; rewrite Forall_map; rewrite Forall_forall in *; intros s Hs; cbn; constructor; auto.
    specialize (H s Hs). cbn in *. exact H. }
  intros Hs D W. destruct v; cbn [structure_of] in Hs; inversion Hs; subst; clear Hs; cbn [canon] in D, W;
    inversion D; subst; inversion W; subst; repeat apply Forall_cons; try apply Forall_nil; cbn [canon];
    try (split; constructor; cbn; assumption); try (now apply ST); try (now apply SI).
Qed.

Lemma canon_kinds v : decodable (canon v) -> wt (canon v) -> forall w, Sub w v -> kind_ok w.
Proof.
  induction v as [|b|k z|b|b|s|l IH|l IH|m IH|v sig fs Hs IH|] using goval_view_ind; intros D W w Hw;
    try (inversion Hw; subst; [exact I|discriminate]).
  - inversion Hw; subst; [|discriminate]. cbn [canon] in W. inversion W; subst. cbn in *. destruct k; try exact I; lia.
  - apply Sub_slice_inv in Hw. destruct Hw as [->|(x & Hx & Hw)]; [exact I|]. cbn [canon] in D, W. inversion D; inversion W; subst.
    rewrite Forall_map in *. rewrite Forall_forall in *. apply (IH x); auto.
  - apply Sub_tslice_inv in Hw. destruct Hw as [->|(x & Hx & Hw)]; [exact I|]. cbn [canon] in D, W. inversion D; inversion W; subst.
    rewrite Forall_map in *. rewrite Forall_forall in *. apply (IH x); auto.
  - apply Sub_map_inv in Hw. destruct Hw as [->|(k & x & Hx & Hw)]; [exact I|]. cbn [canon] in D, W. inversion D; inversion W; subst.
    match goal with H : wtm _ |- _ => inversion H; subst end. rewrite Forall_map in *. cbn [snd] in *. rewrite Forall_forall in *.
    apply (IH (k, x)); auto.
  - pose proof (fields_canon _ _ _ Hs D W) as F. apply (Sub_struct_inv _ _ _ _ Hs) in Hw. destruct Hw as [->|(x & Hx & Hw)].
    + destruct v; try exact I; cbn [canon structure_of] in *; try discriminate; inversion D.
    + rewrite Forall_forall in *. destruct (F x Hx). apply (IH x); auto.
  - inversion D.
Qed.

Lemma pok_trans v : (forall w, Sub w v -> kind_ok w) -> pok true (denote v) -> Transmissible v.
Proof.
  induction v as [|b|k z|b|b|s|l IH|l IH|m IH|v sig fs Hs IH|] using goval_view_ind; intros K P;
    try (intros w Hw; split; [now apply K|inversion Hw; subst; [exact I|discriminate]]).
  - intros w Hw; split; [now apply K|]. inversion Hw; subst; [exact P|discriminate].
  - cbn [denote pok] in P. rewrite zlen_map, allP_Forall, Forall_map in P. apply trans_inv_slice. split; [apply P|].
    destruct P as [_ P]. rewrite Forall_forall in *. intros x Hx. apply IH; auto. intros w Hw. apply K. eapply Sub_slice; eassumption.
  - cbn [denote pok] in P. rewrite zlen_map, allP_Forall, Forall_map in P. apply trans_inv_tslice. split; [apply P|].
    destruct P as [_ P]. rewrite Forall_forall in *. intros x Hx. apply IH; auto. intros w Hw. apply K. eapply Sub_tslice; eassumption.
  - cbn [denote pok] in P. rewrite zlen_map, allP_Forall, Forall_map in P. apply trans_inv_map. split; [apply P|].
    destruct P as [_ P]. cbn [fst snd] in P. rewrite Forall_forall in *. intros [k x] Hx. specialize (P _ Hx). split; [apply P|].
    apply (IH _ Hx); [|apply P]. intros w Hw. apply K. eapply Sub_map; eassumption.
  - rewrite (denote_structure_of _ _ _ Hs) in P. cbn [pok] in P. rewrite allP_Forall, Forall_map in P.
    apply (trans_inv_struct _ _ _ Hs). split; [apply K; apply Sub_refl|]. destruct P as (_ & _ & P). rewrite Forall_forall in *.
    intros x Hx. apply IH; auto. intros w Hw. apply K. eapply Sub_field; eassumption.
Qed.

(** Values without structures of the caller's own making. *)
Definition plain (v : goval) : Prop := forall sig fs, ~ Sub (VUser sig fs) v.

Lemma wt_pwf v : wt v -> plain v -> pwf (denote v).
Proof.
  induction v as [|b|k z|b|b|s|l IH|l IH|m IH|v sig fs Hs IH|] using goval_view_ind; intros W N; try exact I.
  - cbn [denote pwf]. rewrite allP_Forall, Forall_map. inversion W; subst. rewrite Forall_forall in *. intros x Hx. apply IH; auto.
    intros g fs Hw. apply (N g fs). eapply Sub_slice; eassumption.
  - cbn [denote pwf]. rewrite allP_Forall, Forall_map. inversion W; subst. rewrite Forall_forall in *. intros x Hx. apply IH; auto.
    intros g fs Hw. apply (N g fs). eapply Sub_tslice; eassumption.
  - cbn [denote pwf]. rewrite allP_Forall, Forall_map, map_map. inversion W; subst.
    match goal with H : wtm _ |- _ => inversion H; subst end. split; [assumption|]. rewrite Forall_forall in *. intros [k x] Hx.
    apply (IH _ Hx); [now apply (H2 (k, x))|]. intros g fs Hw. apply (N g fs). eapply Sub_map; eassumption.
  - rewrite (denote_structure_of _ _ _ Hs). cbn [pwf]. rewrite allP_Forall, Forall_map, zlen_map. split.
    + destruct v; cbn [structure_of] in Hs; inversion Hs; subst; try reflexivity. destruct (N _ _ (Sub_refl _)).
    + pose proof (wt_fields _ _ _ Hs W) as F. rewrite Forall_forall in *. intros x Hx. apply IH; auto.
      intros g fs' Hw. apply (N g fs'). eapply Sub_field; eassumption.
Qed.

Lemma map_PStr_inj a b : map PStr a = map PStr b -> a = b.
Proof. revert b. induction a as [|x a IH]; intros [|y b] E; try discriminate; [reflexivity|]. injection E as <- E. f_equal. auto. Qed.
Lemma map_PInt_inj a b : map PInt a = map PInt b -> a = b.
Proof. revert b. induction a as [|x a IH]; intros [|y b] E; try discriminate; [reflexivity|]. injection E as <- E. f_equal. auto. Qed.

(** What is received for [v] is [canon v] if it denotes the same. *)
Lemma denote_unique v : plain v -> (forall w, Sub w v -> w <> VOther) -> forall u, decodable u -> denote u = denote v -> u = canon v.
Proof.
  assert (LI : forall l, Forall (fun x => forall u, decodable u -> denote u = denote x -> u = canon x) l ->
    forall us, Forall decodable us -> map denote us = map denote l -> us = map canon l).
  { induction 1 as [|x l Hx H IH]; intros [|u us] D E; try discriminate; [reflexivity|]. injection E as E1 E2. inversion D; subst.
    cbn. f_equal; auto. }
  assert (LM : forall m, Forall (fun kv => forall u, decodable u -> denote u = denote (snd kv) -> u = canon (snd kv)) m ->
    forall us, Forall (fun kv => decodable (snd kv)) us -> dmap us = dmap m -> us = map (fun kv => (fst kv, canon (snd kv))) m).
  { induction 1 as [|[k x] m Hx H IH]; intros [|[k' u] us] D E; try discriminate; [reflexivity|]. injection E as -> E1 E2. inversion D; subst.
    cbn in *. f_equal; auto. f_equal. auto. }
  induction v as [|b|k z|b|b|s|l IH|l IH|m IH|v sig fs Hs IH|] using goval_view_ind; intros N O u D E.
  - destruct u; inversion D; subst; try discriminate; reflexivity.
  - destruct u; inversion D; subst; try discriminate. injection E as ->. reflexivity.
  - destruct u; inversion D; subst; try discriminate. injection E as ->. reflexivity.
  - destruct u; inversion D; subst; try discriminate. cbn [denote] in E. injection E as ->. reflexivity.
  - destruct u; inversion D; subst; try discriminate. injection E as ->. reflexivity.
  - destruct u; inversion D; subst; try discriminate. injection E as ->. reflexivity.
  - destruct u; inversion D; subst; try discriminate. cbn [denote] in E. injection E as E. cbn [canon]. f_equal. apply LI; trivial.
    rewrite Forall_forall in *. intros x Hx. apply IH; trivial.
    + intros g fs Hw. apply (N g fs). eapply Sub_slice; eassumption.
    + intros w Hw. apply O. eapply Sub_slice; eassumption.
  - destruct u; inversion D; subst; try discriminate. cbn [denote] in E. injection E as E. cbn [canon]. f_equal. apply LI; trivial.
    rewrite Forall_forall in *. intros x Hx. apply IH; trivial.
    + intros g fs Hw. apply (N g fs). eapply Sub_tslice; eassumption.
    + intros w Hw. apply O. eapply Sub_tslice; eassumption.
  - destruct u; inversion D; subst; try discriminate. cbn [denote] in E. injection E as E. cbn [canon]. f_equal. apply LM; trivial.
    rewrite Forall_forall in *. intros [k x] Hx. apply (IH _ Hx); trivial.
    + intros g fs Hw. apply (N g fs). eapply Sub_map; eassumption.
    + intros w Hw. apply O. eapply Sub_map; eassumption.
  - assert (F : Forall (fun x => forall u, decodable u -> denote u = denote x -> u = canon x) fs).
    { rewrite Forall_forall in *. intros x Hx. apply IH; trivial.
      - intros g fs' Hw. apply (N g fs'). eapply Sub_field; eassumption.
      - intros w Hw. apply O. eapply Sub_field; eassumption. }
    clear IH.
    assert (PM : forall ps ps', In (VMap ps) fs -> Forall (fun kv => decodable (snd kv)) ps' -> dmap ps' = dmap ps ->
      ps' = map (fun kv => (fst kv, canon (snd kv))) ps).
    { intros ps ps' HI HD E'. rewrite Forall_forall in F. specialize (F _ HI (VMap ps') (dc_map _ HD)). cbn [denote canon] in F.
      unfold dmap in E'. rewrite E' in F. specialize (F eq_refl). now injection F. }
    assert (PL : forall l l', In (VSlice l) fs -> Forall decodable l' -> map denote l' = map denote l -> l' = map canon l).
    { intros l l' HI HD E'. rewrite Forall_forall in F. specialize (F _ HI (VSlice l') (dc_slice _ HD)). cbn [denote canon] in F.
      rewrite E' in F. specialize (F eq_refl). now injection F. }
    destruct v; cbn [structure_of] in Hs; inversion Hs; subst; clear Hs F;
      try (destruct (N _ _ (Sub_refl _)));
      destruct u; inversion D; subst; cbn [denote] in E; try discriminate; try reflexivity;
      injection E; intros; subst; cbn [canon]; f_equal;
      try (now apply map_PStr_inj); try (now apply map_PInt_inj);
      try (apply PM; [cbn; tauto|assumption|assumption]); try (apply PL; [cbn; tauto|assumption|assumption]).
  - destruct (O _ (Sub_refl _) eq_refl).
Qed.

(** ** What is sent and not received as it was crashes the receiver *)
Section NoErr.
Variable mk : bool.
Local Notation dec := (dec mk). Local Notation dec_slice := (dec_slice mk).
Local Notation dec_n := (dec_n mk). Local Notation dec_map := (dec_map mk).
Local Notation dec_m := (dec_m mk). Local Notation dec_struct := (dec_struct mk).
Local Notation decode := (decode mk). Local Notation guarded := (guarded mk). Local Notation exactly := (exactly mk).

Definition noerr (p : pval) : Prop := forall f r e, Forall is_byte r -> dec f (penc p ++ r) <> DErr e.
Definition sound (p : pval) : Prop := noerr p /\ exactly p /\ guarded p /\ Forall is_byte (penc p).

Lemma noerr_str s : sz_ok false (zlen s) -> noerr (PStr s).
Proof.
  intros H [|f] r e _ E; [discriminate|]. cbn [penc] in E. unfold pstr in E. rewrite <- app_assoc in E.
  destruct (sz_cases _ H) as [G|B].
  - rewrite (dec_str_hdr mk f (zlen s)) in E by now apply phdr_header. unfold next_str in E. destruct (zlen s <? 0); discriminate.
  - destruct (str_neg mk f (zlen s) (s ++ r) B) as (n & Hn & E'). rewrite E' in E. unfold next_str in E. destruct (n <? 0); discriminate.
Qed.

Lemma concat_is_bytes (l : list bytes) : Forall (Forall is_byte) l -> Forall is_byte (concat l).
Proof. induction 1; cbn; [constructor|]. now apply Forall_app. Qed.
Lemma sounds_bytes l r : Forall sound l -> Forall is_byte r -> Forall is_byte (concat (map penc l) ++ r).
Proof.
  intros H HB. apply Forall_app. split; [|assumption]. apply concat_is_bytes. rewrite Forall_map. revert H. apply Forall_impl. now intros p (_ & _ & _ & B).
Qed.
Lemma entries_bytes m r : Forall (fun kv => sz_ok false (zlen (fst kv)) /\ Forall is_byte (pstr (fst kv)) /\ sound (snd kv)) m -> Forall is_byte r ->
  Forall is_byte (concat (map (fun kv => pstr (fst kv) ++ penc (snd kv)) m) ++ r).
Proof.
  intros H HB. apply Forall_app. split; [|assumption]. apply concat_is_bytes. rewrite Forall_map. revert H. apply Forall_impl.
  intros p (_ & B1 & _ & _ & _ & B). now apply Forall_app.
Qed.

Lemma noerr_n l : Forall sound l -> forall f r e, Forall is_byte r -> dec_n f (zlen l) (concat (map penc l) ++ r) <> DErr e.
Proof.
  induction 1 as [|p l (Np & Xp & Gp & Bp) H IH]; intros [|f] r e HB E; try discriminate; rewrite dec_n_S in E.
  zl. pose proof (zlen_nonneg l). replace (1 + zlen l <=? 0) with false in E by lia. cbn [map concat] in E. rewrite <- app_assoc in E.
  destruct (dec f _) as [v x|e'| |] eqn:ED in E; cbn [dbind] in E; try discriminate; [|apply Np in ED; trivial; now apply sounds_bytes].
  destruct (Xp _ _ _ _ ED (or_introl Gp)) as (_ & _ & ->). replace (1 + zlen l - 1) with (zlen l) in E by lia.
  destruct (dec_n f _ _) as [vs y|e'| |] eqn:EN in E; cbn [dbind] in E; try discriminate. now apply IH in EN.
Qed.
Lemma noerr_m m : Forall (fun kv => sz_ok false (zlen (fst kv)) /\ Forall is_byte (pstr (fst kv)) /\ sound (snd kv)) m ->
  forall f acc r e, Forall is_byte r -> dec_m f (zlen m) acc (concat (map (fun kv => pstr (fst kv) ++ penc (snd kv)) m) ++ r) <> DErr e.
Proof.
  induction 1 as [|[k p] m (Zk & Bk & Np & Xp & Gp & Bp) H IH]; intros [|f] acc r e HB E; try discriminate; rewrite dec_m_S in E.
  cbn [fst snd] in *. zl. pose proof (zlen_nonneg m). replace (1 + zlen m <=? 0) with false in E by lia.
  cbn [map concat fst snd] in E. rewrite <- !app_assoc in E.
  destruct (dec f _) as [v x|e'| |] eqn:ED in E; cbn [dbind] in E; try discriminate;
    [|apply (noerr_str k Zk) in ED; trivial; apply Forall_app; split; trivial; now apply entries_bytes].
  destruct (dec_pstr mk _ _ _ _ _ Zk ED) as (_ & -> & ->).
  destruct (dec f _) as [v x|e'| |] eqn:EV in E; cbn [dbind] in E; try discriminate; [|apply Np in EV; trivial; now apply entries_bytes].
  destruct (Xp _ _ _ _ EV (or_introl Gp)) as (_ & _ & ->). replace (1 + zlen m - 1) with (zlen m) in E by lia. now apply IH in E.
Qed.

(** A field of a structure is received as it is, or the receiver crashes. *)
Definition field_ok (x : goval) : Prop := wt x /\ plain x /\ (forall w, Sub w x -> kind_ok w) /\ sound (denote x).
Lemma field_step x f r : field_ok x -> Forall is_byte r ->
  dec f (penc (denote x) ++ r) = DOk (canon x) r \/ dec f (penc (denote x) ++ r) = DPanic \/ dec f (penc (denote x) ++ r) = DFuel.
Proof.
  intros (W & P & K & (N & X & G & B)) HB. destruct (dec f (penc (denote x) ++ r)) as [u y|e| |] eqn:E; try tauto; [|now apply N in E].
  left. destruct (X _ _ _ _ E (or_introl G)) as (Eu & _ & ->). f_equal. apply denote_unique; trivial.
  - intros w Hw ->. exact (K _ Hw).
  - pose proof (proj1 (dec_typed mk f) (penc (denote x) ++ r)) as T. rewrite E in T. apply T. apply Forall_app. now split.
Qed.

Lemma to_strings_canon ls : to_strings (map canon (map vstr ls)) = Some ls.
Proof. rewrite map_map. now apply to_strings_spec. Qed.
Lemma to_ints_canon ls : to_ints (map canon (map vint ls)) = Some ls.
Proof. rewrite map_map. now apply to_ints_spec. Qed.
Lemma nodes_canon l : Forall (fun n => exists a b c, n = VNode a b c) l -> forallb is_node (map canon l) = true.
Proof.
  intros H. apply forallb_forall. rewrite Forall_forall in H. intros x Hx. apply in_map_iff in Hx. destruct Hx as (y & <- & Hy).
  destruct (H y Hy) as (? & ? & ? & ->). reflexivity.
Qed.
Lemma urels_canon l : Forall (fun n => exists a b c, n = VURel a b c) l -> forallb is_urel (map canon l) = true.
Proof.
  intros H. apply forallb_forall. rewrite Forall_forall in H. intros x Hx. apply in_map_iff in Hx. destruct Hx as (y & <- & Hy).
  destruct (H y Hy) as (? & ? & ? & ->). reflexivity.
Qed.

Lemma noerr_struct v sig fs f r e : structure_of v = Some (sig, fs) -> wt v -> kind_ok v -> Forall field_ok fs -> Forall is_byte r ->
  struct_body (dec f) sig (concat (map penc (map denote fs)) ++ r) <> DErr e.
Proof.
  intros Hs W K F HB E.
  Ltac fstep f E := match type of E with
    | context [dbind (?d (penc (denote ?x) ++ ?r)) _] =>
        let H := fresh in
        assert (H : field_ok x) by assumption;
        apply (field_step x f r) in H;
        [destruct H as [H|[H|H]]; rewrite H in E; cbn [dbind] in E; try discriminate; clear H
        |rewrite ?Forall_app; repeat split; trivial;
         match goal with G : field_ok ?y |- Forall is_byte (penc (denote ?y)) => destruct G as (_ & _ & _ & _ & _ & _ & G); exact G end]
    end.
  destruct v; cbn [structure_of] in Hs; inversion Hs; subst; clear Hs; try contradiction;
    repeat match goal with H : Forall field_ok (_ :: _) |- _ => inversion H; subst; clear H
                         | H : Forall field_ok [] |- _ => clear H end;
    cbn [map concat] in E; rewrite <- ?app_assoc in E; cbn [app] in E; unfold struct_body in E;
    repeat match type of E with (if ?c =? ?k then _ else _) = _ => replace (c =? k) with true in E by reflexivity
                              | (if ?c =? ?k then _ else _) = _ => replace (c =? k) with false in E by reflexivity end;
    cbv iota in E; try discriminate.
  all: repeat (fstep f E; cbn [canon vint64 as_int64 as_str as_slice as_map] in E; try discriminate).
  all: try (rewrite to_strings_canon in E; discriminate).
  all: inversion W; subst; rewrite ?nodes_canon, ?urels_canon, ?to_ints_canon in E by assumption; discriminate.
Qed.

Lemma pstr_bytes k : sz_ok false (zlen k) -> bytes_ok k -> Forall is_byte (pstr k).
Proof. intros Z B. exact (proj1 (PS_bytes false) _ _ (penc_PS false (PStr k) Z) (pb_str _ B)). Qed.
Lemma kinds_plain v : (forall w, Sub w v -> kind_ok w) -> plain v.
Proof. intros K sig fs H. exact (K _ H). Qed.

Lemma dec_noerr v : wt v -> (forall w, Sub w v -> kind_ok w) -> pok false (denote v) -> guarded (denote v) -> noerr (denote v).
Proof.
  assert (SND : forall v, wt v -> (forall w, Sub w v -> kind_ok w) -> pok false (denote v) -> guarded (denote v) ->
    noerr (denote v) -> sound (denote v)).
  { clear v. intros v W K P G N. split; [assumption|]. split; [|split; [assumption|]].
    - apply dec_exact; trivial. apply wt_pwf; trivial. now apply kinds_plain.
    - exact (proj1 (PS_bytes false) _ _ (penc_PS false _ P) (wt_pbytes v W)). }
  induction v as [|b|k z|b|b|s|l IH|l IH|m IH|v sig fs Hs IH|] using goval_view_ind; intros W K P G f r e HB E;
    (destruct f as [|f]; [discriminate|]).
  - discriminate.
  - destruct b; discriminate.
  - cbn [denote penc pok] in *. rewrite dec_pint in E by assumption. discriminate.
  - cbn [denote penc pok] in *. set (c := f32_to_f64 b) in *. clearbody c.
    assert (B : BE 8 c (be 8 c)) by (apply (BE_small 8); [lia|rewrite pow256 by lia; lia]).
    cbn -[rd_scalar be ube] in E. rewrite rd_scalar_app in E by (try lia; apply (BE_len _ _ _ B)). discriminate.
  - cbn [denote penc pok] in *.
    assert (B : BE 8 b (be 8 b)) by (apply (BE_small 8); [lia|rewrite pow256 by lia; lia]).
    cbn -[rd_scalar be ube] in E. rewrite rd_scalar_app in E by (try lia; apply (BE_len _ _ _ B)). discriminate.
  - now apply (noerr_str _ P) in E.
  - assert (S : Forall sound (map denote l)).
    { cbn [denote pok] in *. destruct P as [_ P]. rewrite allP_Forall, Forall_map in P. apply guarded_list in G. rewrite Forall_map in G.
      rewrite Forall_map. inversion W; subst. rewrite Forall_forall in *. intros x Hx.
      assert (Kx : forall w, Sub w x -> kind_ok w) by (intros w Hw; apply K; eapply Sub_slice; eassumption). apply SND; auto. }
    cbn [denote penc pok] in *. rewrite <- app_assoc in E. destruct (sz_cases _ (proj1 P)) as [Z|B].
    + rewrite (dec_list_hdr mk f (zlen (map denote l))) in E by now apply phdr_header. destruct f as [|f]; [discriminate|]. rewrite dec_slice_S in E.
      destruct (_ <? 0) in E; [discriminate|]. destruct (dec_n f _ _) as [| | |] eqn:EN in E; cbn [dbind] in E; try discriminate.
      now apply (noerr_n _ S) in EN.
    + destruct (list_neg mk f _ (concat (map penc (map denote l)) ++ r) B) as (n & Hn & E'). rewrite E' in E.
      destruct f as [|f]; [discriminate|]. rewrite dec_slice_S in E. replace (n <? 0) with true in E by lia. discriminate.
  - assert (S : Forall sound (map denote l)).
    { cbn [denote pok] in *. destruct P as [_ P]. rewrite allP_Forall, Forall_map in P. apply guarded_list in G. rewrite Forall_map in G.
      rewrite Forall_map. inversion W; subst. rewrite Forall_forall in *. intros x Hx.
      assert (Kx : forall w, Sub w x -> kind_ok w) by (intros w Hw; apply K; eapply Sub_tslice; eassumption). apply SND; auto. }
    cbn [denote penc pok] in *. rewrite <- app_assoc in E. destruct (sz_cases _ (proj1 P)) as [Z|B].
    + rewrite (dec_list_hdr mk f (zlen (map denote l))) in E by now apply phdr_header. destruct f as [|f]; [discriminate|]. rewrite dec_slice_S in E.
      destruct (_ <? 0) in E; [discriminate|]. destruct (dec_n f _ _) as [| | |] eqn:EN in E; cbn [dbind] in E; try discriminate.
      now apply (noerr_n _ S) in EN.
    + destruct (list_neg mk f _ (concat (map penc (map denote l)) ++ r) B) as (n & Hn & E'). rewrite E' in E.
      destruct f as [|f]; [discriminate|]. rewrite dec_slice_S in E. replace (n <? 0) with true in E by lia. discriminate.
  - cbn [denote pok] in *. set (m' := map (fun kv => (fst kv, denote (snd kv))) m) in *.
    assert (S : Forall (fun kv => sz_ok false (zlen (fst kv)) /\ Forall is_byte (pstr (fst kv)) /\ sound (snd kv)) m').
    { destruct P as [_ P]. rewrite allP_Forall in P. apply guarded_map in G. unfold m' in *. rewrite Forall_map in *. cbn [fst snd] in *.
      inversion W; subst. match goal with H : wtm _ |- _ => inversion H; subst end. rewrite Forall_forall in *. intros [k x] Hx.
      specialize (P _ Hx). specialize (G _ Hx). cbn [fst snd] in *. destruct P as [Pk Px].
      assert (Kx : forall w, Sub w x -> kind_ok w) by (intros w Hw; apply K; eapply Sub_map; eassumption).
      repeat match goal with H : forall kv, In kv m -> _ |- _ => specialize (H _ Hx) end. cbn [fst snd] in *.
      split; [assumption|]. split; [now apply pstr_bytes|]. apply SND; auto. }
    cbn [penc] in E. rewrite <- app_assoc in E. destruct (sz_cases _ (proj1 P)) as [Z|B].
    + rewrite (dec_map_hdr mk f (zlen m')) in E by now apply phdr_header. destruct f as [|f]; [discriminate|]. rewrite dec_map_S in E.
      destruct (_ && _) in E; [discriminate|]. destruct (dec_m f _ _ _) as [| | |] eqn:EN in E; cbn [dbind] in E; try discriminate.
      now apply (noerr_m _ S) in EN.
    + destruct (map_neg mk f _ (concat (map (fun kv => pstr (fst kv) ++ penc (snd kv)) m') ++ r) B) as (n & Hn & E').
      rewrite E' in E. destruct f as [|f]; [discriminate|]. rewrite dec_map_S in E. replace (n <? 0) with true in E by lia.
      destruct G as [->|[G _]]; [discriminate|]. unfold sz_ok, bad_size in *; lia.
  - pose proof (wt_fields _ _ _ Hs W) as FW. rewrite (denote_structure_of _ _ _ Hs) in *. cbn [pok penc] in *.
    assert (S : Forall field_ok fs).
    { destruct P as (_ & _ & P). rewrite allP_Forall, Forall_map in P. apply guarded_struct in G. rewrite Forall_map in G.
      rewrite Forall_forall in *. intros x Hx.
      assert (Kx : forall w, Sub w x -> kind_ok w) by (intros w Hw; apply K; eapply Sub_field; eassumption).
      split; [auto|]. split; [now apply kinds_plain|]. split; [assumption|]. apply SND; auto. }
    rewrite <- app_assoc in E. destruct P as (OS & OL & _). pose proof (zlen_nonneg (map denote fs)).
    rewrite (dec_struct_hdr mk f (zlen (map denote fs))) in E by (apply phdr_struct; lia).
    destruct f as [|f]; [discriminate|]. cbn [app] in E. rewrite dec_struct_S in E. 
    assert (M : sig mod 256 = sig).
    { pose proof (K _ (Sub_refl _)) as Kv. destruct v; cbn [structure_of] in Hs; inversion Hs; subst; try reflexivity. destruct Kv. }
    rewrite M in E.
    apply (noerr_struct _ _ _ _ _ _ Hs W (K _ (Sub_refl _)) S HB) in E. exact E.
  - destruct (K _ (Sub_refl _)).
Qed.
End NoErr.

(** ** The round trip, exactly *)
Lemma no_big v : (forall w, Sub w v -> kind_ok w) -> no_big_uint v.
Proof. intros K z Hz. exact (K _ Hz). Qed.

Lemma marshal_none v : snd (marshal v) = None -> accepted (enc v).
Proof.
  intros H. destruct (accepted_dec v) as [A|A]; [assumption|exfalso].
  unfold marshal, encode in H. unfold accepted in A. destruct (enc v) as [ws [e|]]; cbn in *; [|congruence].
  destruct (chunk _ _ _). discriminate.
Qed.

Lemma exact_delivered mk v : wt v -> accepted (enc v) -> unmarshal mk (fst (marshal v)) = DVal (canon v) ->
  zlen (backlog 65535 (fst (enc v))) < 65536 /\ Transmissible v.
Proof.
  intros W A E. rewrite marshal_framed in E by assumption. cbn [fst] in E. unfold unmarshal, Decode in E.
  set (w := framed 65535 (fst (enc v))) in *.
  assert (HW : Forall is_byte w) by (apply framed_bytes; now apply enc_is_bytes).
  assert (RB : rbytes [RData w] = w) by (unfold rbytes; cbn; now rewrite app_nil_r).
  destruct (read_msg_spec [RData w]) as [(msg & rest & r' & R & ER & _)|[_ ER]].
  - repeat constructor. eexists; split; [reflexivity|]. apply framed_nonempty.
  - now rewrite RB.
  - rewrite ER in E. rewrite RB in R. destruct (decode mk msg) as [u r''| | |] eqn:D; cbn in E; try discriminate. injection E as ->.
    assert (BM : Forall is_byte msg).
    { destruct R as (w0 & EW & chs & HC & <-). rewrite EW in HW. apply Forall_app in HW. destruct HW as [HW _].
      clear - HC HW. induction HC as [|c h cs wire Hc Hh HC IH]; cbn [concat]; [constructor|].
      apply Forall_app in HW. destruct HW as [_ HW]. apply Forall_app in HW. destruct HW as [HW HW']. apply Forall_app. auto. }
    destruct (decode_typed mk _ _ _ BM D) as [DC WC].
    assert (K := canon_kinds v DC WC). assert (N := no_big v K).
    pose proof (decode_min mk _ _ _ D) as M. rewrite denote_canon, <- (enc_penc v W N A) in M. unfold wbytes in M.
    destruct (Z_lt_le_dec (zlen (backlog 65535 (fst (enc v)))) 65536) as [L|L].
    + split; [assumption|]. destruct (proj2 (framed_iff 65535 (fst (enc v)) ltac:(lia)) L) as (rest' & R').
      destruct (Receives_unique _ _ _ _ _ R R') as [-> _].
      pose proof (enc_penc v W N A) as EP. unfold wbytes in EP. rewrite EP in D. unfold decode in D.
      rewrite <- (app_nil_r (penc (denote v))) in D at 2.
      destruct (dec_exact mk _ (accepted_pok v W N A) (wt_pwf v W (kinds_plain v K)) _ _ _ _ D (or_intror (denote_canon v))) as (_ & P & _).
      now apply pok_trans.
    + pose proof (overlong_shorter 65535 (fst (enc v)) msg rest ltac:(lia) L R). lia.
  - rewrite ER in E. discriminate.
Qed.

Lemma roundtrip_iff mk v : wt v ->
  ((snd (marshal v) = None /\ unmarshal mk (fst (marshal v)) = DVal (canon v)) <->
   (Transmissible v /\ zlen (backlog 65535 (fst (enc v))) < 65536)).
Proof.
  intros W. split.
  - intros [N E]. destruct (exact_delivered mk v W (marshal_none v N) E). now split.
  - intros [T L]. now apply roundtrip_backlog.
Qed.

(** Sent, delivered, and every map (if [make] takes a negative size) small enough: the value comes back, or the receiver crashes. *)
Lemma pmaps_maps v : (forall m, Sub (VMap m) v -> ~ bad_size (zlen m)) -> pok false (denote v) -> plain v -> pmaps (denote v).
Proof.
  induction v as [|b|k z|b|b|s|l IH|l IH|m IH|v sig fs Hs IH|] using goval_view_ind; intros M P U; try exact I.
  - cbn [denote pok pmaps] in *. destruct P as [_ P]. rewrite allP_Forall, Forall_map in *. rewrite Forall_forall in *.
    intros x Hx. apply IH; auto; [intros m Hm; apply M|intros g fs Hm; apply (U g fs)]; eapply Sub_slice; eassumption.
  - cbn [denote pok pmaps] in *. destruct P as [_ P]. rewrite allP_Forall, Forall_map in *. rewrite Forall_forall in *.
    intros x Hx. apply IH; auto; [intros m Hm; apply M|intros g fs Hm; apply (U g fs)]; eapply Sub_tslice; eassumption.
  - cbn [denote pok pmaps] in *. destruct P as [Z P]. split.
    + destruct (sz_cases _ Z) as [G|B]; [assumption|]. rewrite zlen_map in B. destruct (M m (Sub_refl _) B).
    + rewrite allP_Forall, Forall_map in *. rewrite Forall_forall in *. intros [k x] Hx. specialize (P _ Hx). cbn [fst snd] in *.
      apply (IH _ Hx); [intros m' Hm; apply M|apply P|intros g fs Hm; apply (U g fs)]; eapply Sub_map; eassumption.
  - rewrite (denote_structure_of _ _ _ Hs) in *. cbn [pok pmaps] in *. destruct P as (_ & _ & P).
    rewrite allP_Forall, Forall_map in *. rewrite Forall_forall in *.
    intros x Hx. apply IH; auto; [intros m Hm; apply M|intros g fs' Hm; apply (U g fs')]; eapply Sub_field; eassumption.
Qed.

Lemma outcome mk v : wt v -> accepted (enc v) -> (forall w, Sub w v -> kind_ok w) ->
  zlen (backlog 65535 (fst (enc v))) < 65536 -> (mk = true \/ forall m, Sub (VMap m) v -> ~ bad_size (zlen m)) ->
  (Transmissible v /\ unmarshal mk (fst (marshal v)) = DVal (canon v)) \/
  (~ Transmissible v /\ unmarshal mk (fst (marshal v)) = DCrash).
Proof.
  intros W A K L G. assert (N := no_big v K). assert (P := accepted_pok v W N A).
  assert (GD : guarded mk (denote v)).
  { destruct G as [G|G]; [now left|right]. apply pmaps_maps; trivial. now apply kinds_plain. }
  assert (X : exactly mk (denote v)) by (apply dec_exact; trivial; apply wt_pwf; trivial; now apply kinds_plain).
  assert (NE := dec_noerr mk v W K P GD).
  rewrite (delivered mk v W A L). rewrite (enc_penc v W N A).
  assert (BY : Forall is_byte (penc (denote v))) by exact (proj1 (PS_bytes false) _ _ (penc_PS false _ P) (wt_pbytes v W)).
  destruct (decode mk (penc (denote v))) as [u r|e| |] eqn:D; cbn [of_dres].
  - left. destruct (decode_typed mk _ _ _ BY D) as [DU _]. pose proof D as D'. unfold decode in D'.
    rewrite <- (app_nil_r (penc (denote v))) in D' at 2.
    destruct (X _ _ _ _ D' (or_introl GD)) as (E & PT & _). split; [now apply pok_trans|]. f_equal.
    apply denote_unique; trivial; [now apply kinds_plain|]. intros w Hw ->. exact (K _ Hw).
  - exfalso. unfold decode in D. rewrite <- (app_nil_r (penc (denote v))) in D at 2. apply NE in D; [exact D|constructor].
  - right. split; [|reflexivity]. intros T. pose proof (enc_dec mk v [] W T) as D'. rewrite app_nil_r, (enc_penc v W N A) in D'. congruence.
  - now apply decode_total in D.
Qed.
