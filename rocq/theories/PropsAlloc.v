(** C75, C76: memory and stack used for decoding one message. *)
From Coq Require Import ZArith List Bool Lia.
From Coq Require Import ZifyBool.
From Verif Require Import GoPrims Value PrimLemmas PackSpec Decoder Alloc.
Import ListNotations.
Open Scope Z_scope.

Notation M := 2147483648.

(** [s] slots and depth [d] are spent; then comes [y].  [h] is about the result, the length of what is left, and what is
    spent afterwards; without a result at most [S] slots and depth [D] are spent. *)
Definition Run {A} (S D s d : Z) (h : A -> Z -> Z -> Z -> Prop) (y : costs A) : Prop :=
  match fst y with
  | DOk a r => h a (zlen r) (s + slots (snd y)) (Z.max d (depth (snd y)))
  | _ => s + slots (snd y) <= S /\ Z.max d (depth (snd y)) <= D
  end.

Lemma Run_bind {A C} S D s d (h1 : A -> Z -> Z -> Z -> Prop) h (x : costs A) (g : A -> bytes -> costs C) :
  Run S D s d h1 x -> (forall a r s' d', h1 a (zlen r) s' d' -> Run S D s' d' h (g a r)) -> Run S D s d h (cbind x g).
Proof.
  unfold Run, cbind. intros HX HG. destruct (fst x) as [a r|e| |]; cbn [fst snd]; trivial.
  specialize (HG a r _ _ HX). destruct (fst (g a r)); cbn [fst snd slots depth] in *;
    rewrite ?Z.add_assoc, ?Z.max_assoc; exact HG.
Qed.
Lemma Run_make {A} S D s d (h : A -> Z -> Z -> Z -> Prop) n y : Run S D (s + n) d h y -> Run S D s d h (make_slots n y).
Proof. unfold Run, make_slots. cbn [fst snd slots depth]. now rewrite !Z.add_assoc. Qed.
Lemma Run_ok {A} S D s d (h : A -> Z -> Z -> Z -> Prop) a r : 0 <= d -> h a (zlen r) s d -> Run S D s d h (at_no_cost (DOk a r)).
Proof. unfold Run, at_no_cost. cbn. intros H. now rewrite Z.add_0_r, Z.max_l. Qed.
Lemma Run_fail {A} S D s d (h : A -> Z -> Z -> Z -> Prop) x : (forall a r, x <> DOk a r) -> 0 <= d -> s <= S -> d <= D ->
  Run S D s d h (at_no_cost x).
Proof. unfold Run, at_no_cost. cbn. intros N. destruct x; [now destruct (N a rest)|..]; lia. Qed.
Lemma Run_weaken {A} S D s d (h h' : A -> Z -> Z -> Z -> Prop) y : (forall a n s d, h a n s d -> h' a n s d) ->
  Run S D s d h y -> Run S D s d h' y.
Proof. unfold Run. intros H. destruct (fst y); auto. Qed.

Definition spare (v : goval) : Z := match v with VSlice l => zlen l | _ => 0 end.

Lemma spare_nonneg v : 0 <= spare v.
Proof. destruct v; cbn; try apply zlen_nonneg; lia. Qed.

(** A complete value that began with [n0] bytes left *)
Definition paid (n0 s0 d0 : Z) (v : goval) (n s d : Z) : Prop :=
  0 <= n < n0 /\ s0 <= s /\ s + spare v <= s0 + 2 * (n0 - n) - 2 /\ d0 <= d <= Z.max d0 (n0 - n).
(** the same after its marker *)
Definition paid_x (n0 s0 d0 : Z) (v : goval) (n s d : Z) : Prop :=
  0 <= n <= n0 /\ s0 <= s /\ s + spare v <= s0 + 2 * (n0 - n) /\ d0 <= d <= Z.max d0 (n0 - n).
(** [k] values; [k] entries of a map *)
Definition paid_n (k n0 s0 d0 : Z) (l : list goval) (n s d : Z) : Prop :=
  0 <= n /\ zlen l = Z.max 0 k /\ n <= n0 - zlen l /\ s0 <= s <= s0 + 2 * (n0 - n) - 2 * zlen l /\ d0 <= d <= Z.max d0 (n0 - n).
Definition paid_m (k n0 s0 d0 : Z) (m : list (str * goval)) (n s d : Z) : Prop :=
  0 <= n /\ n <= n0 - Z.max 0 k /\ s0 <= s <= s0 + 2 * (n0 - n) - 2 * Z.max 0 k /\ d0 <= d <= Z.max d0 (n0 - n).

(** Enough for [b] more bytes *)
Definition room (S D b s d : Z) : Prop := s + M * b <= S /\ b + 1 <= D /\ 0 <= d <= D.

Section Bound.
Variable mk : bool.
Definition ok_dec f := forall b S D s d, room S D (zlen b) s d -> Run S D s d (paid (zlen b) s d) (cdec mk f b).
Definition ok_slice f := forall k b S D s d, room S D (zlen b) (s + Z.max 0 k) d -> Run S D s d (paid_x (zlen b) s d) (cdec_slice mk f k b).
Definition ok_n f := forall k b S D s d, room S D (zlen b) s d -> Run S D s d (paid_n k (zlen b) s d) (cdec_n mk f k b).
Definition ok_map f := forall k b S D s d, room S D (zlen b) (s + Z.max 0 k) d -> Run S D s d (paid_x (zlen b) s d) (cdec_map mk f k b).
Definition ok_m f := forall k acc b S D s d, room S D (zlen b) s d -> Run S D s d (paid_m k (zlen b) s d) (cdec_m mk f k acc b).
Definition ok_struct f := forall b S D s d, room S D (zlen b) s d -> Run S D s d (paid (zlen b) s d) (cdec_struct mk f b).

Ltac nn := repeat match goal with |- context [@zlen ?A ?l] => lazymatch goal with _ : 0 <= zlen l |- _ => fail | _ => pose proof (zlen_nonneg l) end
                               | _ : context [@zlen ?A ?l] |- _ => lazymatch goal with _ : 0 <= zlen l |- _ => fail | _ => pose proof (zlen_nonneg l) end
                               | _ : context [spare ?v] |- _ => lazymatch goal with _ : 0 <= spare v |- _ => fail | _ => pose proof (spare_nonneg v) end end.
Ltac num := unfold room, paid, paid_x, paid_n, paid_m in *; cbn [spare] in *; nn; lia.

Lemma ok_n_step f : ok_dec f -> ok_n f -> ok_n (S f).
Proof.
  intros I1 I2 k b S D s d R. cbn [cdec_n]. destruct (k <=? 0) eqn:C.
  { apply Run_ok; [num|]. unfold paid_n. change (zlen (@nil goval)) with 0. num. }
  eapply Run_bind; [apply I1; num|]. intros v r s' d' P.
  eapply Run_bind; [apply I2; num|]. intros l r2 s2 d2 P2. apply Run_ok; [num|].
  unfold paid_n. zl. num.
Qed.

Lemma ok_slice_step f : ok_n f -> ok_slice (S f).
Proof.
  intros I k b S D s d R. cbn [cdec_slice]. destruct (k <? 0) eqn:C.
  { apply Run_fail; [discriminate|num..]. }
  apply Run_make. eapply Run_bind; [apply I; num|]. intros l r s' d' P. apply Run_ok; num.
Qed.

Lemma ok_m_step f : ok_dec f -> ok_m f -> ok_m (S f).
Proof.
  intros I1 I2 k acc b S D s d R. cbn [cdec_m]. destruct (k <=? 0) eqn:C.
  { apply Run_ok; num. }
  eapply Run_bind; [apply I1; num|]. intros v r s' d' P.
  eapply Run_bind; [apply I1; num|]. intros w r2 s2 d2 P2.
  destruct v; try (apply Run_fail; [discriminate|num..]).
  eapply Run_weaken; [|apply I2; num]. intros; num.
Qed.

Lemma ok_map_step f : ok_m f -> ok_map (S f).
Proof.
  intros I k b S D s d R. cbn [cdec_map]. destruct ((k <? 0) && mk) eqn:C.
  { apply Run_fail; [discriminate|num..]. }
  apply Run_make. eapply Run_bind; [apply I; num|]. intros l r s' d' P. apply Run_ok; num.
Qed.

Lemma Run_int {A} S D s d (h : A -> Z -> Z -> Z -> Prop) v k :
  (forall z, v = VInt KInt64 z -> Run S D s d h (k z)) -> 0 <= d -> s <= S -> d <= D -> Run S D s d h (as_int64_c v k).
Proof. intros H. unfold as_int64_c. destruct v; intros; try (apply Run_fail; [discriminate|assumption..]).
  destruct k0; try (apply Run_fail; [discriminate|assumption..]). now apply H. Qed.
Lemma Run_str {A} S D s d (h : A -> Z -> Z -> Z -> Prop) v k :
  (forall z, v = VStr z -> Run S D s d h (k z)) -> 0 <= d -> s <= S -> d <= D -> Run S D s d h (as_str_c v k).
Proof. intros H. destruct v; intros; try (apply Run_fail; [discriminate|assumption..]). now apply H. Qed.
Lemma Run_map {A} S D s d (h : A -> Z -> Z -> Z -> Prop) v k :
  (forall z, v = VMap z -> Run S D s d h (k z)) -> 0 <= d -> s <= S -> d <= D -> Run S D s d h (as_map_c v k).
Proof. intros H. destruct v; intros; try (apply Run_fail; [discriminate|assumption..]). now apply H. Qed.
Lemma Run_slice {A} S D s d (h : A -> Z -> Z -> Z -> Prop) v k :
  (forall z, v = VSlice z -> Run S D s d h (k z)) -> 0 <= d -> s <= S -> d <= D -> Run S D s d h (as_slice_c v k).
Proof. intros H. destruct v; intros; try (apply Run_fail; [discriminate|assumption..]). now apply H. Qed.

Ltac field I :=
  eapply Run_bind; [apply I; num|];
  let v := fresh "v" in let r := fresh "r" in let P := fresh "P" in let N := fresh "N" in
  intros v r ? ? P; pose proof (spare_nonneg v) as N;
  first [apply Run_int; [|num..]|apply Run_str; [|num..]|apply Run_map; [|num..]|apply Run_slice; [|num..]]; intros ? ->; cbn [spare] in *.

Lemma ok_struct_step f : ok_dec f -> ok_struct (S f).
Proof.
  intros I [|sig b] S D s d R; cbn [cdec_struct]; [apply Run_fail; [discriminate|num..]|]. zl. rewrite ?zlen_cons in *.
  repeat match goal with |- Run _ _ _ _ _ (if ?c then _ else _) => destruct c end;
    try (apply Run_ok; [num|num]); try (apply Run_fail; [discriminate|num..]).
  - field I. field I. apply Run_make. destruct (to_strings z0); [|apply Run_fail; [discriminate|num..]].
    field I. apply Run_ok; num.
  - field I. field I. field I. field I. field I. apply Run_ok; num.
  - field I. apply Run_make. destruct (forallb is_node z); [|apply Run_fail; [discriminate|num..]].
    field I. apply Run_make. destruct (forallb is_urel z0); [|apply Run_fail; [discriminate|num..]].
    field I. apply Run_make. destruct (to_ints z1); [apply Run_ok; num|apply Run_fail; [discriminate|num..]].
  - field I. field I. field I. apply Run_ok; num.
  - field I. apply Run_ok; num.
  - field I. apply Run_ok; num.
  - field I. apply Run_ok; num.
Qed.

(** A field of fixed size *)
Lemma Run_rd S D s d k b : 0 <= k -> 0 <= d <= D -> s <= S ->
  Run S D s d (fun x n s' d' => n = zlen b - k /\ zlen x = k /\ s' = s /\ d' = d) (at_no_cost (rd k b)).
Proof.
  intros K HD HS. unfold rd. destruct (zlen b <? k) eqn:C; [apply Run_fail; [discriminate|lia..]|].
  apply Run_ok; [lia|]. rewrite zlen_zdrop, zlen_ztake by lia. lia.
Qed.
Lemma Run_rd_int S D s d k b : 0 < k <= 4 -> 0 <= d <= D -> s <= S ->
  Run S D s d (fun x n s' d' => n = zlen b - k /\ - M <= x < M /\ s' = s /\ d' = d) (at_no_cost (rd_int k b)).
Proof.
  intros K HD HS. unfold rd_int, rd. destruct (zlen b <? k) eqn:C; cbn [dbind]; [apply Run_fail; [discriminate|lia..]|].
  apply Run_ok; [lia|]. split; [rewrite zlen_zdrop by lia; lia|]. split; [|lia].
  unfold sbe. rewrite zlen_ztake by lia. rewrite Z.min_l by lia.
  pose proof (wraps_range (8 * k) (ube (ztake k b)) ltac:(lia)) as WR.
  assert (2 ^ (8 * k - 1) <= 2 ^ 31) by (apply Z.pow_le_mono_r; lia). change (2 ^ 31) with M in *. lia.
Qed.
Lemma Run_next S D s d k b : 0 <= d <= D -> s <= S ->
  Run S D s d (paid_x (zlen b) s d) (next_str_c k b).
Proof.
  intros HD HS. unfold next_str_c, next_str. destruct (k <? 0) eqn:C; [apply Run_fail; [discriminate|lia..]|].
  apply Run_make. apply Run_ok; [lia|]. unfold paid_x. cbn [spare].
  destruct (Z_le_gt_dec k (zlen b)).
  - rewrite zlen_zdrop, zlen_ztake by lia. nn. lia.
  - rewrite ztake_all by lia. assert (zdrop k b = []) as ->.
    { pose proof (ztake_zdrop k b) as X. rewrite ztake_all in X by lia. rewrite <- (app_nil_r b) in X at 3. now apply app_inv_head in X. }
    change (zlen (@nil Z)) with 0. nn. lia.
Qed.

Lemma Run_scalar S D s d k b (g : bytes -> bytes -> dres goval) : 0 < k -> 0 <= d <= D -> s <= S ->
  (forall x r, exists v, g x r = DOk v r /\ spare v = 0) ->
  Run S D s d (paid_x (zlen b) s d) (at_no_cost (dbind (rd_scalar k b) g)).
Proof.
  intros K HD HS HG. unfold rd_scalar. destruct (zlen b =? 0); [apply Run_fail; [discriminate|lia..]|].
  unfold rd. destruct (zlen b <? k) eqn:C; cbn [dbind]; [apply Run_fail; [discriminate|lia..]|].
  destruct (HG (ztake k b) (zdrop k b)) as (v & -> & E). apply Run_ok; [lia|].
  unfold paid_x. rewrite E, zlen_zdrop by lia. nn. lia.
Qed.
Lemma Run_int_scalar S D s d k b : 0 < k -> 0 <= d <= D -> s <= S ->
  Run S D s d (paid_x (zlen b) s d) (at_no_cost (dbind (rd_int_scalar k b) (fun z r => DOk (VInt KInt64 z) r))).
Proof.
  intros K HD HS. unfold rd_int_scalar.
  replace (dbind (dbind (rd_scalar k b) (fun x r => DOk (sbe x) r)) (fun z r => DOk (VInt KInt64 z) r))
    with (dbind (rd_scalar k b) (fun x r => DOk (VInt KInt64 (sbe x)) r)) by (now destruct (rd_scalar k b)).
  apply Run_scalar; trivial. intros. eexists. now split.
Qed.

Lemma Run_deeper S D s d n0 y : 0 <= d <= D -> 1 <= D -> Run S (D - 1) s 0 (paid_x (n0 - 1) s 0) y ->
  Run S D s d (paid n0 s d) (one_deeper y).
Proof.
  intros HD H1. unfold Run, one_deeper, paid, paid_x. cbn [fst snd slots depth]. destruct (fst y); intros; lia.
Qed.

Lemma ok_dec_step f : ok_slice f -> ok_map f -> ok_struct f -> ok_dec (S f).
Proof.
  intros I2 I3 I4 b S D s d R. cbn [cdec]. apply Run_deeper; [num|num|].
  destruct b as [|m r]; [apply Run_fail; [discriminate|num..]|]. rewrite zlen_cons in *. cbv zeta.
  replace (1 + zlen r - 1) with (zlen r) by lia.
  repeat match goal with |- Run _ _ _ _ _ (if ?c then _ else _) => destruct c eqn:? end;
    try (apply Run_ok; [num|num]); try (apply Run_fail; [discriminate|num..]);
    try (apply Run_int_scalar; num); try (apply Run_next; num).
  - apply Run_scalar; [num..|]. intros. eexists. now split.
  - eapply Run_bind; [apply Run_rd_int; num|]. intros k r' s' d' (E & K & -> & ->).
    eapply Run_weaken; [|apply Run_next; num]. intros; num.
  - eapply Run_bind; [apply Run_rd_int; num|]. intros k r' s' d' (E & K & -> & ->).
    eapply Run_weaken; [|apply Run_next; num]. intros; num.
  - eapply Run_bind; [apply Run_rd_int; num|]. intros k r' s' d' (E & K & -> & ->).
    eapply Run_weaken; [|apply Run_next; num]. intros; num.
  - apply I2. num.
  - eapply Run_bind; [apply Run_rd_int; num|]. intros k r' s' d' (E & K & -> & ->).
    eapply Run_weaken; [|apply I2; num]. intros; num.
  - eapply Run_bind; [apply Run_rd_int; num|]. intros k r' s' d' (E & K & -> & ->).
    eapply Run_weaken; [|apply I2; num]. intros; num.
  - eapply Run_bind; [apply Run_rd_int; num|]. intros k r' s' d' (E & K & -> & ->).
    eapply Run_weaken; [|apply I2; num]. intros; num.
  - apply I3. num.
  - eapply Run_bind; [apply Run_rd_int; num|]. intros k r' s' d' (E & K & -> & ->).
    eapply Run_weaken; [|apply I3; num]. intros; num.
  - eapply Run_bind; [apply Run_rd_int; num|]. intros k r' s' d' (E & K & -> & ->).
    eapply Run_weaken; [|apply I3; num]. intros; num.
  - eapply Run_bind; [apply Run_rd_int; num|]. intros k r' s' d' (E & K & -> & ->).
    eapply Run_weaken; [|apply I3; num]. intros; num.
  - eapply Run_weaken; [|apply I4; num]. intros; num.
  - eapply Run_bind; [apply Run_rd_int; num|]. intros k r' s' d' (E & K & -> & ->).
    eapply Run_weaken; [|apply I4; num]. intros; num.
  - eapply Run_bind; [apply Run_rd_int; num|]. intros k r' s' d' (E & K & -> & ->).
    eapply Run_weaken; [|apply I4; num]. intros; num.
Qed.

Lemma bounded f : ok_dec f /\ ok_slice f /\ ok_n f /\ ok_map f /\ ok_m f /\ ok_struct f.
Proof.
  induction f as [|f (I1 & I2 & I3 & I4 & I5 & I6)].
  - split; [intros b S D s d R; apply (Run_deeper S D s d); [num|num|apply Run_fail; [discriminate|num..]]|].
    split; [|split; [|split; [|split]]]; red; intros; apply Run_fail; try discriminate; num.
  - split; [now apply ok_dec_step|]. split; [now apply ok_slice_step|]. split; [now apply ok_n_step|].
    split; [now apply ok_map_step|]. split; [now apply ok_m_step|]. now apply ok_struct_step.
Qed.
End Bound.

(** ** C75: memory *)

(** A message that is decoded costs at most two slots for each byte of it that is used. *)
Theorem C75_decoded_partial : forall mk b v r, decode mk b = DOk v r ->
  fst (cdecode mk b) = DOk v r /\ slots (snd (cdecode mk b)) <= 2 * (zlen b - zlen r).
Proof.
  intros mk b v r E. pose proof (erased mk (decode_fuel b)) as (ER & _). unfold cdecode. rewrite ER.
  split; [exact E|]. destruct (bounded mk (decode_fuel b)) as (B & _).
  specialize (B b (M * zlen b) (zlen b + 1) 0 0). pose proof (zlen_nonneg b). specialize (B ltac:(unfold room; lia)).
  unfold Run in B. rewrite ER in B. unfold decode in E. rewrite E in B. unfold paid in B.
  pose proof (spare_nonneg v). lia.
Qed.

(** Any message: 2^31 slots for each byte of it. *)
Theorem C75_any_partial : forall mk b, slots (snd (cdecode mk b)) <= M * zlen b.
Proof.
  intros mk b. destruct (bounded mk (decode_fuel b)) as (B & _).
  specialize (B b (M * zlen b) (zlen b + 1) 0 0). pose proof (zlen_nonneg b). specialize (B ltac:(unfold room; lia)).
  unfold cdecode. unfold Run in B. destruct (fst (cdec mk (decode_fuel b) b)); [|lia..].
  unfold paid in B. pose proof (spare_nonneg a). lia.
Qed.

(** [n] beginnings of lists, one in the other, each announcing 2^31 - 1 elements (decoder.go:196, 250) *)
Definition announce : bytes := [0xD6; 0x7F; 0xFF; 0xFF; 0xFF].
Fixpoint announces (n : nat) : bytes := match n with O => [] | S n => announce ++ announces n end.

Lemma cdec_list32 mk f r : cdec mk (S f) (0xD6 :: r) = one_deeper (cbind (at_no_cost (rd_int 4 r)) (cdec_slice mk f)).
Proof. reflexivity. Qed.
Lemma cdec_slice_pos mk f k b : 0 <= k -> cdec_slice mk (S f) k b =
  make_slots k (cbind (cdec_n mk f k b) (fun l r => at_no_cost (DOk (VSlice l) r))).
Proof. intros H. cbn [cdec_slice]. now replace (k <? 0) with false by lia. Qed.
Lemma cdec_n_pos mk f k b : 0 < k -> cdec_n mk (S f) k b =
  cbind (cdec mk f b) (fun v r => cbind (cdec_n mk f (k - 1) r) (fun l r => at_no_cost (DOk (v :: l) r))).
Proof. intros H. cbn [cdec_n]. now replace (k <=? 0) with false by lia. Qed.
Lemma rd_int_announce r : rd_int 4 ([0x7F; 0xFF; 0xFF; 0xFF] ++ r) = DOk (M - 1) r.
Proof.
  unfold rd_int, rd. pose proof (zlen_nonneg r). replace (zlen ([127; 255; 255; 255] ++ r) <? 4) with false by (zl; lia).
  cbn [dbind]. rewrite ztake_app', zdrop_app' by reflexivity. reflexivity.
Qed.

Lemma announces_cost mk n : forall f, (3 * n < f)%nat ->
  cdec mk f (announces n) = (DErr DEMarkerEOF, Cost (Z.of_nat n * (M - 1)) (Z.of_nat n + 1)).
Proof.
  induction n as [|n IH]; intros f Hf.
  - destruct f; [lia|reflexivity].
  - destruct f as [|[|[|f]]]; try lia. specialize (IH f ltac:(lia)). cbn [announces]. unfold announce.
    change ([214; 127; 255; 255; 255] ++ announces n) with (214 :: ([127; 255; 255; 255] ++ announces n)).
    rewrite cdec_list32, rd_int_announce. unfold at_no_cost at 1, cbind at 1. cbn [fst snd]. cbv zeta.
    rewrite cdec_slice_pos, cdec_n_pos, IH by lia.
    unfold cbind, make_slots, one_deeper, free. cbn [fst snd slots depth]. f_equal. f_equal; lia.
Qed.

Lemma announces_len n : zlen (announces n) = 5 * Z.of_nat n.
Proof. induction n as [|n IH]; [reflexivity|]. cbn [announces]. zl. rewrite IH. change (zlen announce) with 5. lia. Qed.
Lemma announces_bytes n : Forall is_byte (announces n).
Proof. induction n as [|n IH]; [constructor|]. apply Forall_app. split; [|exact IH]. repeat constructor; unfold is_byte; lia. Qed.

Lemma announces_fuel n : (3 * n < decode_fuel (announces n))%nat.
Proof. unfold decode_fuel. pose proof (announces_len n). unfold zlen in *. lia. Qed.

(** A malformed message of [5 n] bytes makes the decoder ask for [n (2^31 - 1)] slots (32 GiB for each five bytes). *)
Theorem C75_refuted : forall mk n, Forall is_byte (announces n) /\ zlen (announces n) = 5 * Z.of_nat n /\
  decode mk (announces n) = DErr DEMarkerEOF /\ slots (snd (cdecode mk (announces n))) = Z.of_nat n * (M - 1).
Proof.
  intros mk n. split; [apply announces_bytes|]. split; [apply announces_len|]. unfold decode, cdecode.
  rewrite <- (proj1 (erased mk _)), (announces_cost mk n _ (announces_fuel n)). now split.
Qed.

(** ** C76: depth *)

(** As many calls of decode on the stack as the message has bytes, and one. *)
Theorem C76_partial : forall mk b, depth (snd (cdecode mk b)) <= zlen b + 1.
Proof.
  intros mk b. destruct (bounded mk (decode_fuel b)) as (B & _).
  specialize (B b (M * zlen b) (zlen b + 1) 0 0). pose proof (zlen_nonneg b). specialize (B ltac:(unfold room; lia)).
  unfold cdecode. unfold Run in B. destruct (fst (cdec mk (decode_fuel b) b)); [|lia..].
  unfold paid in B. lia.
Qed.

Fixpoint nested (n : nat) : goval := match n with O => VNil | S n => VSlice [nested n] end.

Lemma cdec_list1 mk f r : cdec mk (S f) (0x91 :: r) = one_deeper (cdec_slice mk f 1 r).
Proof. reflexivity. Qed.
Lemma cdec_n_zero mk f b : cdec_n mk (S f) 0 b = at_no_cost (DOk [] b).
Proof. reflexivity. Qed.

Lemma nested_cost mk n : forall f, (3 * n + 1 < f)%nat ->
  cdec mk f (repeat 0x91 n ++ [0xC0]) = (DOk (nested n) [], Cost (Z.of_nat n) (Z.of_nat n + 1)).
Proof.
  induction n as [|n IH]; intros f Hf.
  - destruct f; [lia|reflexivity].
  - destruct f as [|[|[|f]]]; try lia. specialize (IH f ltac:(lia)). cbn [repeat app nested].
    rewrite cdec_list1, cdec_slice_pos, cdec_n_pos by lia. rewrite IH. destruct f as [|f]; [lia|].
    unfold cbind at 1 2. cbn [fst snd]. cbv zeta. change (1 - 1) with 0. rewrite cdec_n_zero.
    unfold cbind, make_slots, one_deeper, at_no_cost, free. cbn [fst snd slots depth]. f_equal. f_equal; lia.
Qed.

(** Depth [n + 1] for a well-formed message of [n + 1] bytes: there is no bound.  (Go ends the whole program when a stack
    exceeds its limit.) *)
Theorem C76_refuted : forall mk n, decode mk (repeat 0x91 n ++ [0xC0]) = DOk (nested n) [] /\
  zlen (repeat 0x91 n ++ [0xC0]) = Z.of_nat n + 1 /\ depth (snd (cdecode mk (repeat 0x91 n ++ [0xC0]))) = Z.of_nat n + 1.
Proof.
  intros mk n. assert (F : (3 * n + 1 < decode_fuel (repeat 0x91%Z n ++ [0xC0%Z]))%nat).
  { unfold decode_fuel. rewrite app_length, repeat_length. cbn. lia. }
  unfold decode, cdecode. rewrite <- (proj1 (erased mk _)), (nested_cost mk n _ F). split; [reflexivity|]. split; [|reflexivity].
  zl. rewrite zlen_repeat. lia.
Qed.

(** A record with a list of two numbers and a node with two labels; the bound is not far away. *)
Example C75_example : exists v,
  decode false [0xB1; 0x71; 0x92; 0x92; 1; 2; 0xB3; 0x4E; 7; 0x92; 0x81; 65; 0x81; 66; 0xA1; 0x81; 67; 1] = DOk v [] /\
  snd (cdecode false [0xB1; 0x71; 0x92; 0x92; 1; 2; 0xB3; 0x4E; 7; 0x92; 0x81; 65; 0x81; 66; 0xA1; 0x81; 67; 1]) = Cost 12 5.
Proof. eexists. split; vm_compute; reflexivity. Qed.

Print Assumptions C75_decoded_partial.
Print Assumptions C75_any_partial.
Print Assumptions C75_refuted.
Print Assumptions C76_partial.
Print Assumptions C76_refuted.
