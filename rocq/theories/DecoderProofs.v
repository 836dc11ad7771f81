(** Proofs about the decoder: termination, consumption, types of results,
    acceptance of every valid encoding. *)
From Coq Require Import ZArith List Bool Lia.
From Coq Require Import ZifyBool.
From Verif Require Import GoPrims Value PackSpec PrimLemmas Encoder EncoderProofs PackProofs Decoder.
Import ListNotations.
Open Scope Z_scope.

Section D.
Variable mk : bool.
Local Notation dec := (dec mk). Local Notation dec_slice := (dec_slice mk).
Local Notation dec_n := (dec_n mk). Local Notation dec_map := (dec_map mk).
Local Notation dec_m := (dec_m mk). Local Notation dec_struct := (dec_struct mk).
Local Notation decode := (decode mk).

Lemma dec_S f b : dec (S f) b =
    match b with
    | [] => DErr DEMarkerEOF
    | m :: r =>
      let markerInt := wraps 8 m in
      if m =? 0xC0 then DOk VNil r
      else if m =? 0xC3 then DOk (VBool true) r
      else if m =? 0xC2 then DOk (VBool false) r
      else if (-16 <=? markerInt) && (markerInt <=? 127) then DOk (VInt KInt64 (wraps 8 m)) r
      else if m =? 0xC8 then dbind (rd_int_scalar 1 r) (fun z r => DOk (VInt KInt64 z) r)
      else if m =? 0xC9 then dbind (rd_int_scalar 2 r) (fun z r => DOk (VInt KInt64 z) r)
      else if m =? 0xCA then dbind (rd_int_scalar 4 r) (fun z r => DOk (VInt KInt64 z) r)
      else if m =? 0xCB then dbind (rd_int_scalar 8 r) (fun z r => DOk (VInt KInt64 z) r)
      else if m =? 0xC1 then dbind (rd_scalar 8 r) (fun x r => DOk (VF64 (ube x)) r)
      else if (0x80 <=? m) && (m <=? 0x80 + 0x0F) then
        let size := m - 0x80 in
        if size =? 0 then DOk (VStr []) r else next_str size r
      else if m =? 0xD0 then dbind (rd_int 1 r) next_str
      else if m =? 0xD1 then dbind (rd_int 2 r) next_str
      else if m =? 0xD2 then dbind (rd_int 4 r) next_str
      else if (0x90 <=? m) && (m <=? 0x90 + 0x0F) then dec_slice f (m - 0x90) r
      else if m =? 0xD4 then dbind (rd_int 1 r) (dec_slice f)
      else if m =? 0xD5 then dbind (rd_int 2 r) (dec_slice f)
      else if m =? 0xD6 then dbind (rd_int 4 r) (dec_slice f)
      else if (0xA0 <=? m) && (m <=? 0xA0 + 0x0F) then dec_map f (m - 0xA0) r
      else if m =? 0xD8 then dbind (rd_int 1 r) (dec_map f)
      else if m =? 0xD9 then dbind (rd_int 2 r) (dec_map f)
      else if m =? 0xDA then dbind (rd_int 4 r) (dec_map f)
      else if (0xB0 <=? m) && (m <=? 0xB0 + 0x0F) then dec_struct f r
      else if m =? 0xDC then dbind (rd_int 1 r) (fun _ r => dec_struct f r)
      else if m =? 0xDD then dbind (rd_int 2 r) (fun _ r => dec_struct f r)
      else DErr DEMarker
    end.
Proof. reflexivity. Qed.
Lemma dec_slice_S f size b : dec_slice (S f) size b =
  if size <? 0 then DPanic else dbind (dec_n f size b) (fun l r => DOk (VSlice l) r).
Proof. reflexivity. Qed.
Lemma dec_n_S f n b : dec_n (S f) n b =
    if n <=? 0 then DOk [] b
    else dbind (dec f b) (fun v r => dbind (dec_n f (n - 1) r) (fun l r => DOk (v :: l) r)).
Proof. reflexivity. Qed.
Lemma dec_map_S f size b : dec_map (S f) size b =
    if (size <? 0) && mk then DPanic else dbind (dec_m f size [] b) (fun m r => DOk (VMap m) r).
Proof. reflexivity. Qed.
Lemma dec_m_S f n acc b : dec_m (S f) n acc b =
    if n <=? 0 then DOk acc b
    else dbind (dec f b) (fun k r => dbind (dec f r) (fun v r =>
         match k with VStr s => dec_m f (n - 1) (mput s v acc) r | _ => DErr DEKey end)).
Proof. reflexivity. Qed.

(** Body of decodeStruct over a given field decoder. *)
Definition struct_body (d : bytes -> dres goval) (sig : Z) (r : bytes) : dres goval :=
      if sig =? 0x4E then
        dbind (d r) (fun i r => as_int64 i (fun id =>
        dbind (d r) (fun l r => as_slice l (fun ls =>
        match to_strings ls with
        | None => DErr DEType
        | Some labels =>
          dbind (d r) (fun p r => as_map p (fun props =>
          DOk (VNode id labels props) r))
        end))))
      else if sig =? 0x52 then
        dbind (d r) (fun i r => as_int64 i (fun id =>
        dbind (d r) (fun i r => as_int64 i (fun s =>
        dbind (d r) (fun i r => as_int64 i (fun e =>
        dbind (d r) (fun t r => as_str t (fun ty =>
        dbind (d r) (fun p r => as_map p (fun props =>
        DOk (VRel id s e ty props) r))))))))))
      else if sig =? 0x50 then
        dbind (d r) (fun n r => as_slice n (fun ns =>
        if forallb is_node ns then
          dbind (d r) (fun x r => as_slice x (fun rs =>
          if forallb is_urel rs then
            dbind (d r) (fun q r => as_slice q (fun qs =>
            match to_ints qs with
            | None => DPanic
            | Some seq => DOk (VPath ns rs seq) r
            end))
          else DErr DEType))
        else DErr DEType))
      else if sig =? 0x72 then
        dbind (d r) (fun i r => as_int64 i (fun id =>
        dbind (d r) (fun t r => as_str t (fun ty =>
        dbind (d r) (fun p r => as_map p (fun props =>
        DOk (VURel id ty props) r))))))
      else if sig =? 0x71 then
        dbind (d r) (fun l r => as_slice l (fun fs => DOk (VRecord fs) r))
      else if sig =? 0x7F then
        dbind (d r) (fun m r => as_map m (fun md => DOk (VFailure md) r))
      else if sig =? 0x7E then DOk VIgnored r
      else if sig =? 0x70 then
        dbind (d r) (fun m r => as_map m (fun md => DOk (VSuccess md) r))
      else if sig =? 0x0E then DOk VAckFailure r
      else if sig =? 0x2F then DOk VDiscardAll r
      else if sig =? 0x3F then DOk VPullAll r
      else if sig =? 0x0F then DOk VReset r
      else DErr DESig.
Lemma dec_struct_S f sig r : dec_struct (S f) (sig :: r) = struct_body (dec f) sig r.
Proof. reflexivity. Qed.
Lemma dec_struct_nil f : dec_struct (S f) [] = DErr DEMarkerEOF.
Proof. reflexivity. Qed.

(** ** Termination and consumption *)
Definition suf (r b : bytes) : Prop := exists c, b = c ++ r.
Lemma suf_refl b : suf b b.  Proof. now exists []. Qed.
Lemma suf_trans a b c : suf a b -> suf b c -> suf a c.
Proof. intros [x ->] [y ->]. exists (y ++ x). now rewrite app_assoc. Qed.
Lemma suf_cons m r : suf r (m :: r).  Proof. now exists [m]. Qed.
Lemma suf_zdrop n b : suf (zdrop n b) b.
Proof. exists (ztake n b). now rewrite ztake_zdrop. Qed.

(** [gres n b x]: not out of fuel, and on success [x] leaves a suffix of [b]
    that is at least [n] bytes shorter. *)
Definition gres {A} (n : nat) (b : bytes) (x : dres A) : Prop :=
  match x with
  | DOk _ r => suf r b /\ (length r + n <= length b)%nat
  | DFuel => False
  | _ => True
  end.

Lemma gres_bind {A B} n k b (x : dres A) (g : A -> bytes -> dres B) :
  gres n b x ->
  (forall a r, suf r b -> (length r + n <= length b)%nat -> gres k r (g a r)) ->
  gres (n + k) b (dbind x g).
Proof.
  unfold gres, dbind. destruct x as [a r| | |]; try tauto. intros [S L] G.
  specialize (G a r S L). destruct (g a r); try tauto. destruct G as [S' L']. split; [|lia].
  eapply suf_trans; eassumption.
Qed.
Lemma gres_weak {A} n k b b' (x : dres A) :
  gres n b x -> suf b b' -> (length b + k <= length b' + n)%nat -> gres k b' x.
Proof.
  unfold gres. destruct x; try tauto. intros [S L] S' L'. split; [eapply suf_trans; eassumption|lia].
Qed.
Lemma gres_rd n b : 0 <= n -> gres (Z.to_nat n) b (rd n b).
Proof.
  intros Hn. unfold rd. destruct (zlen b <? n) eqn:E; [exact I|]. split; [apply suf_zdrop|].
  pose proof (zlen_zdrop n b Hn). unfold zlen in *. lia.
Qed.
Lemma gres_rd_int n b : 0 <= n -> gres (Z.to_nat n) b (rd_int n b).
Proof.
  intros Hn. unfold rd_int. replace (Z.to_nat n) with (Z.to_nat n + 0)%nat by lia.
  apply gres_bind; [now apply gres_rd|]. intros; split; [apply suf_refl|lia].
Qed.
Lemma gres_scalar n b : 0 <= n -> gres (Z.to_nat n) b (rd_scalar n b).
Proof. intros Hn. unfold rd_scalar. destruct (zlen b =? 0); [exact I|now apply gres_rd]. Qed.
Lemma gres_int_scalar n b : 0 <= n -> gres (Z.to_nat n) b (rd_int_scalar n b).
Proof.
  intros Hn. unfold rd_int_scalar. replace (Z.to_nat n) with (Z.to_nat n + 0)%nat by lia.
  apply gres_bind; [now apply gres_scalar|]. intros; split; [apply suf_refl|lia].
Qed.
Lemma gres_next n b : gres 0 b (next_str n b).
Proof.
  unfold next_str. destruct (n <? 0) eqn:E; [exact I|]. split; [apply suf_zdrop|].
  pose proof (zlen_zdrop n b ltac:(lia)). pose proof (zlen_nonneg b). unfold zlen in *. lia.
Qed.
Lemma gres_bind0 {A B} b (x : dres A) n (g : A -> bytes -> dres B) :
  gres n b x -> (forall a r, suf r b -> (length r + n <= length b)%nat -> gres 0 r (g a r)) ->
  gres 0 b (dbind x g).
Proof.
  intros H G. apply (gres_weak (n + 0) 0 b b); [now apply gres_bind|apply suf_refl|lia].
Qed.

Ltac dif := match goal with |- context [if ?c then _ else _] => destruct c eqn:? end.

Lemma dec_good f :
  (forall b, (3 * length b + 1 <= f)%nat -> gres 1 b (dec f b)) /\
  (forall n b, (3 * length b + 3 <= f)%nat -> gres 0 b (dec_slice f n b)) /\
  (forall n b, (3 * length b + 2 <= f)%nat -> gres 0 b (dec_n f n b)) /\
  (forall n b, (3 * length b + 3 <= f)%nat -> gres 0 b (dec_map f n b)) /\
  (forall n acc b, (3 * length b + 2 <= f)%nat -> gres 0 b (dec_m f n acc b)) /\
  (forall b, (3 * length b + 1 <= f)%nat -> gres 0 b (dec_struct f b)).
Proof.
  induction f as [|f (IHd & IHs & IHn & IHm & IHm' & IHst)];
    [repeat split; intros; lia|].
  split; [|split; [|split; [|split; [|split]]]].
  - intros [|m r] L; [exact I|]. cbn [length] in L.
    assert (K : forall x : dres goval, gres 0 r x -> gres 1 (m :: r) x).
    { intros x H. eapply gres_weak; [exact H|apply suf_cons|cbn; lia]. }
    assert (OK : forall v : goval, gres 1 (m :: r) (DOk v r)).
    { intros v. apply K. split; [apply suf_refl|lia]. }
    assert (RD : forall n (g : Z -> bytes -> dres goval), 0 <= n -> 
        (forall z r', suf r' r -> (length r' <= length r)%nat -> gres 0 r' (g z r')) -> gres 1 (m :: r) (dbind (rd_int n r) g)).
    { intros n g Hn G. apply K. eapply gres_bind0; [now apply gres_rd_int|]. intros; apply G; [assumption|lia]. }
    assert (RS : forall n, 0 <= n -> gres 1 (m :: r) (dbind (rd_int_scalar n r) (fun z r => DOk (VInt KInt64 z) r))).
    { intros n Hn. apply K. eapply gres_bind0; [now apply gres_int_scalar|]. intros; split; [apply suf_refl|lia]. }
    rewrite dec_S. cbv zeta.
    repeat (dif; [first [apply OK | apply RS; lia | apply RD; [lia|intros; first [split; [apply suf_refl|lia] | apply gres_next | apply IHs; lia | apply IHm; lia | apply IHst; lia]]
      | apply K; first [apply gres_next | apply IHs; lia | apply IHm; lia | apply IHst; lia] | idtac ] | ]).
    + apply K. eapply gres_bind0; [apply gres_scalar; lia|]. intros; split; [apply suf_refl|lia].
    + apply K, gres_next.
    + exact I.
  - intros n b L. rewrite dec_slice_S. dif; [exact I|].
    eapply gres_bind0; [apply IHn; lia|]. intros; split; [apply suf_refl|lia].
  - intros n b L. rewrite dec_n_S. dif; [split; [apply suf_refl|lia]|].
    eapply gres_bind0; [apply IHd; lia|]. intros v r S Lr.
    eapply gres_bind0; [apply IHn; lia|]. intros; split; [apply suf_refl|lia].
  - intros n b L. rewrite dec_map_S. dif; [exact I|].
    eapply gres_bind0; [apply IHm'; lia|]. intros; split; [apply suf_refl|lia].
  - intros n acc b L. rewrite dec_m_S. dif; [split; [apply suf_refl|lia]|].
    eapply gres_bind0; [apply IHd; lia|]. intros k r S Lr.
    eapply gres_bind0; [apply IHd; lia|]. intros v r' S' Lr'.
    destruct k; try exact I. apply IHm'; lia.
  - intros [|sig r] L; [exact I|]. cbn [length] in L.
    eapply (gres_weak 0 0 r); [|apply suf_cons|cbn; lia].
    rewrite dec_struct_S. unfold struct_body.
    assert (OK : forall (v : goval) r', gres 0 r' (DOk v r')) by (intros; split; [apply suf_refl|lia]).
    assert (BI : forall (g : goval -> bytes -> dres goval) r', (length r' <= length r)%nat ->
       (forall a r'', (length r'' <= length r)%nat -> gres 0 r'' (g a r'')) -> gres 0 r' (dbind (dec f r') g)).
    { intros g r' Lr G. eapply gres_bind0; [apply IHd; lia|]. intros; apply G; lia. }
    unfold as_int64, as_str, as_slice, as_map.
    repeat match goal with
    | |- gres _ _ (if ?c then _ else _) => destruct c
    | |- gres _ _ (DOk _ _) => apply OK
    | |- gres _ _ (DErr _) => exact I
    | |- gres _ _ DPanic => exact I
    | |- gres _ _ (dbind (dec f ?r') _) => apply BI; [lia|intros ? ? ?]
    | |- gres _ _ (match ?v with _ => _ end) => destruct v
    end.
Qed.

Lemma decode_good b : gres 1 b (decode b).
Proof. apply dec_good. unfold decode_fuel. lia. Qed.

(** C09 *)
Lemma decode_total b : decode b <> DFuel.
Proof. pose proof (decode_good b). intros E. now rewrite E in H. Qed.
Lemma decode_consumes b v r : decode b = DOk v r -> exists c, c <> [] /\ b = c ++ r.
Proof.
  intros E. pose proof (decode_good b) as G. rewrite E in G. destruct G as [[c ->] L].
  exists c. split; [|reflexivity]. intros ->. cbn in L. lia.
Qed.

(** ** Types of decoded values (C11) *)
Definition dtyped (v : goval) : Prop := decodable v /\ wt v.
Definition mtyped (m : list (str * goval)) : Prop := wtm m /\ Forall (fun kv => decodable (snd kv)) m.

Definition tres {A} (P : A -> Prop) (x : dres A) : Prop :=
  match x with DOk a r => P a /\ Forall is_byte r | _ => True end.
Lemma tres_bind {A B} (P : A -> Prop) (Q : B -> Prop) x (g : A -> bytes -> dres B) :
  tres P x -> (forall a r, P a -> Forall is_byte r -> tres Q (g a r)) -> tres Q (dbind x g).
Proof. destruct x; cbn; try tauto. intros [] G. now apply G. Qed.

Lemma bytes_ztake n b : Forall is_byte b -> Forall is_byte (ztake n b).
Proof. intros H. rewrite <- (ztake_zdrop n b) in H. apply Forall_app in H. tauto. Qed.
Lemma bytes_zdrop n b : Forall is_byte b -> Forall is_byte (zdrop n b).
Proof. intros H. rewrite <- (ztake_zdrop n b) in H. apply Forall_app in H. tauto. Qed.

Lemma tres_rd n b : 0 <= n -> Forall is_byte b -> tres (fun x => zlen x = n /\ Forall is_byte x) (rd n b).
Proof.
  intros Hn Hb. unfold rd. destruct (zlen b <? n) eqn:E; [exact I|]. cbn.
  split; [split|]; [|now apply bytes_ztake|now apply bytes_zdrop]. rewrite zlen_ztake by lia. lia.
Qed.
Lemma tres_rd_int n b : 0 < n <= 8 -> Forall is_byte b -> tres (fun z => - 2 ^ 63 <= z < 2 ^ 63) (rd_int n b).
Proof.
  intros Hn Hb. unfold rd_int. eapply tres_bind; [apply tres_rd; [lia|assumption]|].
  intros x r [Lx Hx] Hr. cbn. split; [|assumption]. unfold sbe. rewrite Lx.
  pose proof (wraps_range (8 * n) (ube x) ltac:(lia)) as W.
  assert (2 ^ (8 * n - 1) <= 2 ^ 63) by (apply Z.pow_le_mono_r; lia). lia.
Qed.
Lemma tres_scalar n b : 0 <= n -> Forall is_byte b -> tres (fun x => zlen x = n /\ Forall is_byte x) (rd_scalar n b).
Proof. intros Hn Hb. unfold rd_scalar. destruct (zlen b =? 0); [exact I|now apply tres_rd]. Qed.
Lemma tres_int_scalar n b : 0 < n <= 8 -> Forall is_byte b -> tres (fun z => - 2 ^ 63 <= z < 2 ^ 63) (rd_int_scalar n b).
Proof.
  intros Hn Hb. unfold rd_int_scalar, rd_scalar. destruct (zlen b =? 0); [exact I|]. now apply tres_rd_int.
Qed.
Lemma dtyped_int z : - 2 ^ 63 <= z < 2 ^ 63 -> dtyped (VInt KInt64 z).
Proof. intros H. split; constructor. cbn. lia. Qed.
Lemma dtyped_str s : Forall is_byte s -> dtyped (VStr s).
Proof. intros H. split; constructor. exact H. Qed.
Lemma tres_next n b : Forall is_byte b -> tres dtyped (next_str n b).
Proof.
  intros H. unfold next_str. destruct (n <? 0); [exact I|]. cbn. split; [|now apply bytes_zdrop].
  apply dtyped_str. now apply bytes_ztake.
Qed.
Lemma mtyped_nil : mtyped [].
Proof. split; [split|]; constructor. Qed.
Lemma mtyped_put s v m : Forall is_byte s -> dtyped v -> mtyped m -> mtyped (mput s v m).
Proof.
  intros Hs [Hd Hw] [[? HD HK HV] HDc].
  assert (G : forall (P : str * goval -> Prop) l, P (s, v) -> Forall P l -> Forall P (mput s v l)).
  { intros P l Hp. induction 1 as [|[k' v'] l H1 H2 IH]; cbn; [now constructor|].
    destruct (str_eqb s k'); constructor; assumption. }
  split; [split|]; [now apply mput_nodup|apply G; assumption|apply G; assumption|apply G; assumption].
Qed.
Lemma dtyped_slice l : Forall dtyped l -> dtyped (VSlice l).
Proof. intros H. split; constructor; revert H; apply Forall_impl; now intros ? []. Qed.
Lemma dtyped_map m : mtyped m -> dtyped (VMap m).
Proof. intros [H1 H2]. split; constructor; assumption. Qed.
Lemma dtyped_slice_inv l : dtyped (VSlice l) -> Forall dtyped l.
Proof.
  intros [H1 H2]. inversion H1; inversion H2; subst. rewrite Forall_forall in *. intros; split; auto.
Qed.
Lemma dtyped_map_inv m : dtyped (VMap m) -> mtyped m.
Proof. intros [H1 H2]. inversion H1; inversion H2; subst. split; assumption. Qed.
Lemma dtyped_str_inv s : dtyped (VStr s) -> Forall is_byte s.
Proof. intros [_ H]. now inversion H. Qed.
Lemma dtyped_int_inv k z : dtyped (VInt k z) -> krange KInt64 z = true.
Proof. intros [H1 H2]. inversion H1; inversion H2; subst. assumption. Qed.
Lemma to_strings_spec l ls : to_strings l = Some ls <-> l = map vstr ls.
Proof.
  revert ls; induction l as [|v l IH]; intros ls; cbn [to_strings].
  - split; [intros [= <-]; reflexivity|]. destruct ls; [reflexivity|discriminate].
  - destruct v; try (split; [discriminate|destruct ls; discriminate]).
    destruct (to_strings l) as [r|] eqn:E.
    + split.
      * intros [= <-]. cbn. f_equal. now apply IH.
      * destruct ls as [|x ls]; [discriminate|]. cbn. intros [= -> H]. apply IH in H. congruence.
    + split; [discriminate|]. destruct ls as [|x ls]; [discriminate|]. cbn. intros [= -> H].
      apply IH in H. congruence.
Qed.
Lemma to_ints_spec l ls : to_ints l = Some ls <-> l = map vint64 ls.
Proof.
  revert ls; induction l as [|v l IH]; intros ls; cbn [to_ints].
  - split; [intros [= <-]; reflexivity|]. destruct ls; [reflexivity|discriminate].
  - destruct v; try (split; [discriminate|destruct ls; discriminate]).
    destruct k; try (split; [discriminate|destruct ls; discriminate]).
    destruct (to_ints l) as [r|] eqn:E.
    + split.
      * intros [= <-]. cbn. f_equal. now apply IH.
      * destruct ls as [|x ls]; [discriminate|]. cbn. intros [= -> H]. apply IH in H. congruence.
    + split; [discriminate|]. destruct ls as [|x ls]; [discriminate|]. cbn. intros [= -> H].
      apply IH in H. congruence.
Qed.

Lemma dtyped_node id ls ps : krange KInt64 id = true -> Forall dtyped (map vstr ls) -> mtyped ps -> dtyped (VNode id ls ps).
Proof.
  intros Hi Hl [H1 H2]. split; constructor; try assumption. rewrite Forall_map in Hl.
  revert Hl. apply Forall_impl. intros s. apply dtyped_str_inv.
Qed.
Lemma dtyped_path ns rs seq : Forall dtyped ns -> Forall dtyped rs -> forallb is_node ns = true ->
  forallb is_urel rs = true -> Forall dtyped (map vint64 seq) -> dtyped (VPath ns rs seq).
Proof.
  intros Hn Hr Bn Br Hs.
  assert (P : forall l, Forall dtyped l -> Forall decodable l /\ Forall wt l).
  { intros l H. split; revert H; apply Forall_impl; now intros ? []. }
  apply P in Hn. apply P in Hr. split; constructor; try tauto.
  - rewrite forallb_forall in Bn. apply Forall_forall. intros v Hv. apply Bn in Hv. destruct v; try discriminate. eauto.
  - rewrite forallb_forall in Br. apply Forall_forall. intros v Hv. apply Br in Hv. destruct v; try discriminate. eauto.
  - rewrite Forall_map in Hs. revert Hs. apply Forall_impl. intros z. apply dtyped_int_inv.
Qed.

Lemma dec_typed f :
  (forall b, Forall is_byte b -> tres dtyped (dec f b)) /\
  (forall n b, Forall is_byte b -> tres dtyped (dec_slice f n b)) /\
  (forall n b, Forall is_byte b -> tres (Forall dtyped) (dec_n f n b)) /\
  (forall n b, Forall is_byte b -> tres dtyped (dec_map f n b)) /\
  (forall n acc b, Forall is_byte b -> mtyped acc -> tres mtyped (dec_m f n acc b)) /\
  (forall b, Forall is_byte b -> tres dtyped (dec_struct f b)).
Proof.
  induction f as [|f (IHd & IHs & IHn & IHm & IHm' & IHst)]; [repeat split; intros; exact I|].
  split; [|split; [|split; [|split; [|split]]]].
  - intros [|m r] L; [exact I|]. inversion L as [|? ? Hm Hr]; subst.
    rewrite dec_S. cbv zeta.
    repeat (dif; [first [ solve [split; [split; constructor|assumption]] | solve [split; [apply dtyped_str; constructor|assumption]]
       | eapply tres_bind; [apply tres_int_scalar; [lia|assumption]|intros; split; [now apply dtyped_int|assumption]]
       | eapply tres_bind; [apply tres_rd_int; [lia|assumption]|intros; first [split; [now apply dtyped_int|assumption] | now apply tres_next | now apply IHs | now apply IHm | now apply IHst]]
       | now apply IHs | now apply IHm | now apply IHst | idtac ] | ]).
    + split; [|assumption]. apply dtyped_int. pose proof (wraps_range 8 m ltac:(lia)). lia.
    + eapply tres_bind; [apply tres_scalar; [lia|assumption]|]. intros x r' [Lx Hx] Hr'. split; [|assumption].
      split; constructor. rewrite ube_be_value. pose proof (be_value_bound x Hx). rewrite Lx in *. lia.
    + now apply tres_next.
    + exact I.
  - intros n b Hb. rewrite dec_slice_S. dif; [exact I|].
    eapply tres_bind; [now apply IHn|]. intros l r Hl Hr. split; [now apply dtyped_slice|assumption].
  - intros n b Hb. rewrite dec_n_S. dif; [split; [constructor|assumption]|].
    eapply tres_bind; [now apply IHd|]. intros v r Hv Hr.
    eapply tres_bind; [now apply IHn|]. intros l r' Hl Hr'. split; [now constructor|assumption].
  - intros n b Hb. rewrite dec_map_S. dif; [exact I|].
    eapply tres_bind; [apply IHm'; [assumption|apply mtyped_nil]|]. intros l r Hl Hr. split; [now apply dtyped_map|assumption].
  - intros n acc b Hb Ha. rewrite dec_m_S. dif; [split; assumption|].
    eapply tres_bind; [now apply IHd|]. intros k r Hk Hr.
    eapply tres_bind; [now apply IHd|]. intros v r' Hv Hr'.
    destruct k; try exact I. apply IHm'; [assumption|]. apply mtyped_put; try assumption. now apply dtyped_str_inv.
  - intros [|sig r] L; [exact I|]. inversion L as [|? ? Hm Hr]; subst.
    rewrite dec_struct_S. unfold struct_body.
    unfold as_int64, as_str, as_slice, as_map.
    repeat match goal with
    | |- tres _ (if ?c then _ else _) => destruct c eqn:?
    | |- tres _ (DOk _ _) => split; [|assumption]
    | |- tres _ (DErr _) => exact I
    | |- tres _ DPanic => exact I
    | |- tres _ (dbind (dec f ?r') _) => eapply tres_bind; [apply IHd; assumption|intros ? ? ? ?]
    | |- tres _ (match ?v with _ => _ end) => destruct v eqn:?; subst
    | H : dtyped (VSlice _) |- _ => apply dtyped_slice_inv in H
    | H : dtyped (VMap _) |- _ => apply dtyped_map_inv in H
    | H : dtyped (VStr _) |- _ => apply dtyped_str_inv in H
    | H : dtyped (VInt _ _) |- _ => apply dtyped_int_inv in H
    | H : to_strings _ = Some _ |- _ => apply to_strings_spec in H; subst
    | H : to_ints _ = Some _ |- _ => apply to_ints_spec in H; subst
    end;
    repeat match goal with
    | H : Forall dtyped ?l |- dtyped (VRecord ?l) => split; constructor; revert H; apply Forall_impl; now intros ? []
    | |- dtyped (VNode _ _ _) => apply dtyped_node; assumption
    | |- dtyped (VPath _ _ _) => apply dtyped_path; assumption
    | H : mtyped _ |- _ => destruct H
    | |- dtyped _ => split; constructor; assumption
    end.
Qed.

(** C11 *)
Lemma decode_typed b v r : Forall is_byte b -> decode b = DOk v r -> decodable v /\ wt v.
Proof.
  intros Hb E. pose proof (proj1 (dec_typed (decode_fuel b)) b Hb) as T.
  unfold decode in E. rewrite E in T. exact (proj1 T).
Qed.

End D.
