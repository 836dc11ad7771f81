(** C74: an io.Reader may report the end of the stream (or an error) together with its last bytes or with the next
    call.  crypto/tls does the former when a close notification follows the data.  Both ways give the same messages. *)
From Coq Require Import ZArith List Bool Lia.
From Coq Require Import ZifyBool.
From Verif Require Import GoPrims Value PackSpec PrimLemmas Encoder Decoder Framing ReadFaults Errors Misc.
Import ListNotations.
Open Scope Z_scope.

(** ** Model *)

(** What is left to read: [late_segs], one segment for each Read (a Read with a smaller buffer takes part of a
    segment); then every Read fails with [late_end].  With [late_joint] the Read that takes the last byte of the last
    segment reports [late_end] already, as io.Reader allows. *)
Record late := Late { late_segs : list bytes; late_joint : bool; late_end : rstatus }.

(** One call r.Read(b), len(b) = k: bytes, error, reader afterwards. *)
Definition late_read (k : Z) (r : late) : bytes * option rstatus * late :=
  let 'Late segs j e := r in
  match segs with
  | [] => ([], Some e, r)
  | l :: more =>
      if k <? zlen l then (ztake k l, None, Late (zdrop k l :: more) j e)
      else (l, match more with [] => if j then Some e else None | _ => None end, Late more j e)
  end.

(** io.ReadFull = io.ReadAtLeast(r, buf, n): reads until [n] bytes are there or an error comes; with [n] bytes the error
    is forgotten.  Fuel: one unit for each Read. *)
Fixpoint late_full (fuel : nat) (n : Z) (r : late) : bytes * rstatus * late :=
  match fuel with
  | O => ([], RBad, r)
  | S fuel =>
      let '(l, err, r') := late_read n r in
      if n <=? zlen l then (l, ROk, r')
      else match err with
           | Some e => (l, e, r')
           | None => let '(more, st, r'') := late_full fuel (n - zlen l) r' in (l ++ more, st, r'')
           end
  end.

(** decoder.go:69-89 readData: an error makes the data read with it disappear (decoder.go:75-76). *)
Fixpoint late_data (fuel : nat) (messageLen totalRead : Z) (output : bytes) (r : late) : (bytes + derr) * late :=
  match fuel with
  | O => (inr DEZeroRead, r)
  | S fuel =>
      if totalRead <? messageLen then
        let want := messageLen - totalRead in
        let '(got, err, r') := late_read want r in
        match err with
        | Some e => (inr (DEStream e), r')
        | None =>
            let numRead := zlen got in
            if numRead =? 0 then (inr DEZeroRead, r')
            else late_data fuel messageLen (totalRead + numRead)
                   (ztake totalRead output ++ got ++ repeat 0 (Z.to_nat (want - numRead))) r'
        end
      else (inl output, r)
  end.

(** decoder.go:40-67 read *)
Inductive late_res := LOk (msg : bytes) (rest : late) | LErr (e : derr) (rest : late) | LFuel.
Definition reads_left (r : late) : nat := (length (concat (late_segs r)) + length (late_segs r) + 2)%nat.

Fixpoint late_chunks (fuel : nat) (output : bytes) (r : late) : late_res :=
  match fuel with
  | O => LFuel
  | S fuel =>
      let '(lengthBytes, st, r1) := late_full (reads_left r) 2 r in
      if negb (zlen lengthBytes =? 2) then LErr (DEStream st) r1
      else
        let messageLen := ube lengthBytes in
        if messageLen =? 0 then LOk output r1
        else match late_data (reads_left r1) messageLen 0 (repeat 0 (Z.to_nat messageLen)) r1 with
             | (inl data, r2) => late_chunks fuel (output ++ data) r2
             | (inr e, r2) => LErr e r2
             end
  end.

(** decoder.go:92-99 Decode *)
Definition late_decode (mk : bool) (r : late) : dout * late :=
  match late_chunks (S (length (concat (late_segs r)))) [] r with
  | LErr e rest => (DFail e, rest)
  | LFuel => (DHang, r)
  | LOk msg rest =>
      match decode mk msg with
      | DOk v _ => (DVal v, rest)
      | DErr e => (DFail e, rest)
      | DPanic => (DCrash, rest)
      | DFuel => (DHang, rest)
      end
  end.

(** [n] calls of Decode, one after the other *)
Fixpoint late_decodes (mk : bool) (n : nat) (r : late) : list dout :=
  match n with
  | O => []
  | S n => let (o, r') := late_decode mk r in o :: late_decodes mk n r'
  end.
Fixpoint decodes (mk : bool) (n : nat) (r : reader) : list dout :=
  match n with
  | O => []
  | S n => let (o, r') := Decode mk r in o :: decodes mk n r'
  end.

(** The same bytes for the reader of [Decoder.v], where data and errors come apart: [n] calls can fail *)
Definition apart (n : nat) (segs : list bytes) (e : rstatus) : reader :=
  map RData segs ++ match e with RBad => repeat RFail n | _ => [] end.

(** ** One call against the other *)
Definition fails (e : rstatus) : Prop := e = REof \/ e = RBad.
Definition full (segs : list bytes) : Prop := Forall (fun l : bytes => l <> []) segs.
(** [k] is the number of failing Reads left, only counted for [RBad] *)
Definition same (k : nat) (r : late) (x : reader) : Prop :=
  full (late_segs r) /\ fails (late_end r) /\ x = apart k (late_segs r) (late_end r).

Lemma full_inv l more : full (l :: more) -> l <> [] /\ full more.
Proof. intros H. inversion H. now split. Qed.
Lemma full_drop l more k : full (l :: more) -> 0 <= k < zlen l -> full (zdrop k l :: more).
Proof.
  intros H HK. inversion H; subst. constructor; [|assumption]. apply pos_nonnil. rewrite zlen_zdrop by lia. lia.
Qed.

Lemma same_full fuel : forall n k r x, same (S k) r x -> 0 < n -> (length (late_segs r) < fuel)%nat ->
  let '(l, st, r') := late_full fuel n r in
  let '(l2, st2, x') := read_full n x in
  l = l2 /\ (zlen l = n -> same (S k) r' x') /\ (zlen l <> n -> st = st2 /\ same k r' x').
Proof.
  induction fuel as [|fuel IH]; intros n k [segs j e] x (HF & HE & ->) Hn HL; [cbn in HL; lia|]. cbn [late_segs late_end] in *.
  cbn [late_full late_read]. destruct segs as [|l more].
  - replace (n <=? zlen (@nil Z)) with false by (cbn; lia).
    destruct HE as [-> | ->]; unfold apart; cbn [map app repeat read_full];
      (split; [reflexivity|]); split; intros; [cbn in *; lia| |cbn in *; lia|]; (split; [reflexivity|]);
      (split; [constructor|split; [unfold fails; tauto|reflexivity]]).
  - destruct (full_inv _ _ HF) as [Hl HM]. pose proof (zlen_pos l Hl).
    unfold apart. cbn [map app read_full].
    destruct (zlen l <? n) eqn:C.
    + replace (n <? zlen l) with false by lia. replace (n <=? zlen l) with false by lia.
      destruct more as [|l2 more].
      * destruct j.
        -- destruct HE as [-> | ->]; cbn [map app repeat read_full];
             rewrite app_nil_r; (split; [reflexivity|]); split; intros; [lia| |lia|]; (split; [reflexivity|]);
             (split; [constructor|split; [unfold fails; tauto|reflexivity]]).
        -- destruct fuel as [|fuel]; [cbn in HL; lia|].
           cbn [late_full late_read]. replace (n - zlen l <=? zlen (@nil Z)) with false by (cbn; lia).
           destruct HE as [-> | ->]; cbn [map app repeat read_full];
             rewrite app_nil_r; (split; [reflexivity|]); split; intros; [lia| |lia|]; (split; [reflexivity|]);
             (split; [constructor|split; [unfold fails; tauto|reflexivity]]).
      * specialize (IH (n - zlen l) k (Late (l2 :: more) j e) _ (conj HM (conj HE eq_refl)) ltac:(lia) ltac:(cbn in *; lia)).
        cbn [late_segs late_end] in IH. unfold apart in IH.
        destruct (late_full fuel (n - zlen l) (Late (l2 :: more) j e)) as [[m st] r'].
        change (RData l2 :: map RData more) with (map RData (l2 :: more)).
        change (RData l2 :: map RData more ++ ?z) with (map RData (l2 :: more) ++ z).
        destruct (read_full (n - zlen l) (map RData (l2 :: more) ++ match e with RBad => repeat RFail (S k) | _ => [] end)) as [[m2 st2] x'].
        destruct IH as (-> & A & B). split; [reflexivity|]. zl. split; intros; [apply A; lia|apply B; lia].
    + destruct (zlen l =? n) eqn:C2.
      * replace (n <? zlen l) with false by lia. replace (n <=? zlen l) with true by lia.
        split; [reflexivity|]. split; intros; [|lia]. split; [assumption|split; [assumption|reflexivity]].
      * replace (n <? zlen l) with true by lia. rewrite zlen_ztake by lia. replace (n <=? Z.min n (zlen l)) with true by lia.
        split; [reflexivity|]. split; intros; [|rewrite zlen_ztake in * by lia; lia]. split; [apply full_drop; [assumption|lia]|split; [assumption|reflexivity]].
Qed.

Lemma same_data fuel : forall mlen total out k r x, same (S k) r x -> 0 <= total <= mlen -> zlen out = mlen ->
  (length (late_segs r) + 1 < fuel)%nat ->
  let '(d, r') := late_data fuel mlen total out r in
  let '(d2, x') := read_data mlen total out x in
  match d, d2 with
  | inl a, inl a2 => a = a2 /\ same (S k) r' x'
  | inr e, inr e2 => e = e2 /\ same k r' x'
  (* the whole of the last segment came with the error: only then *)
  | inr e, inl _ => e = DEStream (late_end r) /\ late_segs r' = [] /\ late_end r' = late_end r /\
                    x' = apart (S k) [] (late_end r)
  | inl _, inr _ => False
  end.
Proof.
  induction fuel as [|fuel IH]; intros mlen total out k [segs j e] x (HF & HE & ->) HT HO HL; [cbn in HL; lia|].
  cbn [late_segs late_end] in *.
  cbn [late_data late_read]. destruct segs as [|l more].
  - unfold apart. cbn [map app]. destruct (total <? mlen) eqn:C.
    + destruct HE as [-> | ->]; cbn [repeat read_data]; rewrite C; (split; [reflexivity|]);
        (split; [constructor|split; [unfold fails; tauto|reflexivity]]).
    + destruct HE as [-> | ->]; cbn [repeat read_data]; rewrite C; (split; [reflexivity|]);
        (split; [constructor|split; [unfold fails; tauto|reflexivity]]).
  - destruct (full_inv _ _ HF) as [Hl HM]. pose proof (zlen_pos l Hl).
    unfold apart. cbn [map app read_data]. destruct (total <? mlen) eqn:C.
    2: { split; [reflexivity|]. split; [assumption|split; [assumption|reflexivity]]. }
    set (want := mlen - total) in *.
    assert (LG : zlen (ztake want l) = Z.min want (zlen l)) by (apply zlen_ztake; lia).
    replace (zlen (ztake want l) =? 0) with false by lia.
    destruct (want <? zlen l) eqn:C2.
    + replace (zlen (ztake want l) =? 0) with false by lia.
      destruct fuel as [|fuel]; [cbn in HL; lia|]. cbn [late_data].
      replace (total + zlen (ztake want l) <? mlen) with false by lia.
      split; [reflexivity|]. split; [apply full_drop; [assumption|lia]|split; [assumption|reflexivity]].
    + assert (TL : ztake want l = l) by (apply ztake_all; lia). rewrite TL in *.
      set (out' := ztake total out ++ l ++ repeat 0 (Z.to_nat (want - zlen l))).
      assert (Lo : zlen out' = mlen).
      { unfold out'. zl. rewrite zlen_repeat, zlen_ztake by lia. lia. }
      destruct more as [|l2 more].
      * destruct j.
        -- cbn [map app]. destruct (total + zlen l <? mlen) eqn:C3.
           ++ destruct HE as [-> | ->]; cbn [repeat read_data]; rewrite C3; (split; [reflexivity|]);
                (split; [constructor|split; [unfold fails; tauto|reflexivity]]).
           ++ destruct HE as [-> | ->]; cbn [repeat read_data]; rewrite C3; repeat split.
        -- replace (zlen l =? 0) with false by lia.
           specialize (IH mlen (total + zlen l) out' k (Late [] false e) _ (conj HM (conj HE eq_refl)) ltac:(lia) Lo ltac:(cbn in *; lia)).
           exact IH.
      * replace (zlen l =? 0) with false by lia.
        specialize (IH mlen (total + zlen l) out' k (Late (l2 :: more) j e) _ (conj HM (conj HE eq_refl)) ltac:(lia) Lo ltac:(cbn in *; lia)).
        exact IH.
Qed.

Lemma segs_le (segs : list bytes) : full segs -> (length segs <= length (concat segs))%nat.
Proof.
  induction 1 as [|l segs Hl HF IH]; [cbn; lia|]. cbn. rewrite app_length. destruct l; [easy|]. cbn. lia.
Qed.

Lemma rbytes_apart k segs e : rbytes (apart k segs e) = concat segs.
Proof.
  unfold apart. induction segs as [|l segs IH]; [|cbn; now rewrite IH].
  cbn. destruct e; try reflexivity. induction k; [reflexivity|exact IHk].
Qed.

Lemma apart_nil_fails fuel k e : fails e -> forall out,
  read_chunks (S fuel) out (apart (S k) [] e) = FErr (DEStream e) (apart k [] e).
Proof. intros [-> | ->] out; reflexivity. Qed.

Lemma late_full_len fuel : forall n r, 0 < n -> full (late_segs r) ->
  let '(l, _, r') := late_full fuel n r in
  full (late_segs r') /\ late_end r' = late_end r /\ late_joint r' = late_joint r /\
  concat (late_segs r) = l ++ concat (late_segs r').
Proof.
  induction fuel as [|fuel IH]; intros n [segs j e] Hn HF; [cbn; tauto|].
  cbn [late_segs late_end late_joint] in *. cbn [late_full late_read].
  destruct segs as [|l more].
  - replace (n <=? zlen (@nil Z)) with false by (cbn; lia). cbn. tauto.
  - destruct (full_inv _ _ HF) as [Hl HM]. destruct (n <? zlen l) eqn:C.
    + rewrite zlen_ztake by lia. replace (n <=? Z.min n (zlen l)) with true by lia. cbn [late_segs late_end late_joint concat].
      split; [apply full_drop; [assumption|lia]|]. rewrite app_assoc, ztake_zdrop. tauto.
    + destruct (n <=? zlen l) eqn:C2; [cbn; tauto|].
      destruct (match more with [] => if j then Some e else None | _ :: _ => None end); [cbn; tauto|].
      specialize (IH (n - zlen l) (Late more j e) ltac:(lia) HM).
      destruct (late_full fuel (n - zlen l) (Late more j e)) as [[m st] r'].
      cbn [late_segs late_end late_joint] in IH. destruct IH as (A & B & D & IH).
      cbn [concat]. rewrite IH, app_assoc. tauto.
Qed.

Lemma late_data_len fuel : forall mlen total out r, 0 <= total <= mlen -> full (late_segs r) ->
  let '(d, r') := late_data fuel mlen total out r in
  full (late_segs r') /\ exists p, concat (late_segs r) = p ++ concat (late_segs r').
Proof.
  induction fuel as [|fuel IH]; intros mlen total out [segs j e] HT HF; [cbn; split; [trivial|now exists []]|].
  cbn [late_segs] in *. cbn [late_data late_read].
  destruct (total <? mlen) eqn:C; [|cbn; split; [trivial|now exists []]].
  destruct segs as [|l more]; [cbn; split; [trivial|now exists []]|].
  destruct (full_inv _ _ HF) as [Hl HM]. destruct (mlen - total <? zlen l) eqn:C1.
  - rewrite zlen_ztake by lia. replace (Z.min (mlen - total) (zlen l) =? 0) with false by lia.
    pose proof (full_drop l more (mlen - total) HF ltac:(lia)) as FD.
    specialize (IH mlen (total + Z.min (mlen - total) (zlen l))
      (ztake total out ++ ztake (mlen - total) l ++ repeat 0 (Z.to_nat (mlen - total - Z.min (mlen - total) (zlen l))))
      (Late (zdrop (mlen - total) l :: more) j e) ltac:(lia) FD).
    destruct (late_data fuel mlen _ _ _) as [d r']. cbn [late_segs concat] in *.
    destruct IH as (A & q & B). split; [trivial|]. exists (ztake (mlen - total) l ++ q).
    rewrite <- app_assoc, <- B, app_assoc. now rewrite ztake_zdrop.
  - destruct (match more with [] => if j then Some e else None | _ :: _ => None end).
    + cbn [late_segs concat]. split; [trivial|]. now exists l.
    + pose proof (zlen_pos l Hl). replace (zlen l =? 0) with false by lia.
      specialize (IH mlen (total + zlen l) (ztake total out ++ l ++ repeat 0 (Z.to_nat (mlen - total - zlen l)))
        (Late more j e) ltac:(lia) HM).
      destruct (late_data fuel mlen _ _ _) as [d r']. cbn [late_segs concat] in *.
      destruct IH as (A & q & B). split; [trivial|]. exists (l ++ q). now rewrite <- app_assoc, <- B.
Qed.

Lemma same_chunks fuel : forall out k r x, same (S k) r x -> Forall is_byte (concat (late_segs r)) ->
  (length (concat (late_segs r)) < fuel)%nat ->
  match late_chunks fuel out r, read_chunks fuel out x with
  | LOk m r', FOk m2 x' => m = m2 /\ same (S k) r' x' /\ exists p, concat (late_segs r) = p ++ concat (late_segs r')
  | LErr e r', FErr e2 x' => e = e2 /\ same k r' x' /\ exists p, concat (late_segs r) = p ++ concat (late_segs r')
  | _, _ => False
  end.
Proof.
  induction fuel as [|fuel IH]; intros out k r x HS HB HL; [lia|]. cbn [late_chunks].
  pose proof HS as (HF & HE & HX). pose proof (segs_le _ HF) as SL.
  pose proof (same_full (reads_left r) 2 k r x HS ltac:(lia) ltac:(unfold reads_left; lia)) as SF.
  pose proof (late_full_len (reads_left r) 2 r ltac:(lia) HF) as LL.
  cbn [read_chunks].
  destruct (late_full (reads_left r) 2 r) as [[lb st] r1]. destruct (read_full 2 x) as [[lb2 st2] x1].
  destruct SF as (<- & A & B). destruct LL as (F1 & E1 & J1 & CC).
  destruct (zlen lb =? 2) eqn:C2; cbn [negb].
  2: { destruct B as (<- & B); [lia|]. split; [reflexivity|]. split; [exact B|]. now exists lb. }
  specialize (A ltac:(lia)). clear B.
  destruct (ube lb =? 0) eqn:C0; [split; [reflexivity|]; split; [exact A|]; now exists lb|].
  assert (HBl : Forall is_byte lb /\ Forall is_byte (concat (late_segs r1))) by (rewrite CC in HB; now apply Forall_app in HB).
  destruct HBl as [HBl HB1].
  pose proof (BE_bound _ _ _ (two_bytes lb HBl ltac:(lia))) as BB.
  pose proof (same_data (reads_left r1) (ube lb) 0 (repeat 0 (Z.to_nat (ube lb))) k r1 x1 A ltac:(lia)
    ltac:(rewrite zlen_repeat; lia) ltac:(unfold reads_left; pose proof (segs_le _ F1); lia)) as SD.
  pose proof (late_data_len (reads_left r1) (ube lb) 0 (repeat 0 (Z.to_nat (ube lb))) r1 ltac:(lia) F1) as DL.
  destruct (late_data (reads_left r1) (ube lb) 0 (repeat 0 (Z.to_nat (ube lb))) r1) as [[d|e] r2];
    destruct (read_data (ube lb) 0 (repeat 0 (Z.to_nat (ube lb))) x1) as [[d2|e2] x2]; try contradiction.
  - destruct SD as (<- & SD). destruct DL as (F2 & q & CQ).
    assert (HB2 : Forall is_byte (concat (late_segs r2))) by (rewrite CQ in HB1; now apply Forall_app in HB1).
    specialize (IH (out ++ d) k r2 x2 SD HB2 ltac:(rewrite CC, CQ, !app_length in HL; unfold zlen in C2; lia)).
    destruct (late_chunks fuel (out ++ d) r2) as [m r3|e r3|], (read_chunks fuel (out ++ d) x2) as [m2 x3|e2 x3|]; try contradiction;
      destruct IH as (E & S' & q2 & C3); (split; [exact E|]); (split; [exact S'|]); exists (lb ++ q ++ q2);
      rewrite CC, CQ, C3, <- !app_assoc; reflexivity.
  - destruct SD as (-> & N & E2 & ->). destruct DL as (F2 & q & CQ). rewrite E1 in *.
    destruct fuel as [|fuel]; [rewrite CC, app_length in HL; unfold zlen in C2; lia|].
    rewrite apart_nil_fails by exact HE. split; [reflexivity|]. split.
    + split; [exact F2|]. split; [now rewrite E2|]. now rewrite N, E2.
    + exists (lb ++ q). now rewrite CC, CQ, <- app_assoc.
  - destruct SD as (<- & SD). destruct DL as (F2 & q & CQ). split; [reflexivity|]. split; [exact SD|].
    exists (lb ++ q). now rewrite CC, CQ, <- app_assoc.
Qed.

Lemma same_decode mk k r x : same (S k) r x -> Forall is_byte (concat (late_segs r)) ->
  let (o, r') := late_decode mk r in let (o2, x') := Decode mk x in
  o = o2 /\ Forall is_byte (concat (late_segs r')) /\ (same k r' x' \/ same (S k) r' x').
Proof.
  intros HS HB. pose proof HS as (HF & HE & HX).
  pose proof (same_chunks (S (length (concat (late_segs r)))) [] k r x HS HB ltac:(lia)) as SC.
  unfold late_decode, Decode, read_msg. rewrite HX, rbytes_apart, <- HX.
  destruct (late_chunks (S (length (concat (late_segs r)))) [] r) as [m r3|e r3|],
    (read_chunks (S (length (concat (late_segs r)))) [] x) as [m2 x3|e2 x3|]; try contradiction;
    destruct SC as (<- & S' & p & C); rewrite C in HB; apply Forall_app in HB.
  - destruct (decode mk m); (split; [reflexivity|]); (split; [tauto|]); now right.
  - split; [reflexivity|]. split; [tauto|]. now left.
Qed.

Lemma same_decodes mk n : forall k r x, (n <= k)%nat -> same k r x -> Forall is_byte (concat (late_segs r)) ->
  late_decodes mk n r = decodes mk n x.
Proof.
  induction n as [|n IH]; intros k r x HK HS HB; [reflexivity|]. destruct k as [|k]; [lia|].
  pose proof (same_decode mk k r x HS HB) as SD. cbn [late_decodes decodes].
  destruct (late_decode mk r) as [o r'], (Decode mk x) as [o2 x']. destruct SD as (<- & HB' & [S'|S']); f_equal.
  - apply (IH k); [lia|exact S'|exact HB'].
  - apply (IH (S k)); [lia|exact S'|exact HB'].
Qed.

(** ** C74 *)

(** Any number of Decode calls give the same values and the same errors whether the end comes with the last bytes or
    after them; they are those of the reader of [Decoder.v], for which C08-C16, C61 and C71 are stated. *)
Theorem C74_joint : forall mk n segs j e, full segs -> Forall is_byte (concat segs) -> fails e ->
  late_decodes mk n (Late segs j e) = decodes mk n (apart n segs e).
Proof.
  intros mk n segs j e HF HB HE. apply (same_decodes mk n n); [lia| |exact HB].
  split; [exact HF|]. now split.
Qed.

Lemma took_apart k e : forall r w r', Took r w r' -> forall segs, full segs -> r = apart k segs e ->
  exists segs', full segs' /\ r' = apart k segs' e.
Proof.
  induction 1 as [r|r l r' H IH|b r l r' H IH|b c d r l r' H IH]; intros segs HF E.
  - now exists segs.
  - destruct segs as [|x segs]; [unfold apart in E; destruct e, k; discriminate|].
    injection E as <- _. destruct (full_inv _ _ HF). congruence.
  - destruct segs as [|x segs]; [unfold apart in E; destruct e, k; discriminate|].
    injection E as <- E. destruct (full_inv _ _ HF). eauto.
  - destruct segs as [|x segs]; [unfold apart in E; destruct e, k; discriminate|].
    injection E as <- E. destruct (full_inv _ _ HF). apply (IH ((c :: d) :: segs)); [now constructor|].
    unfold apart. cbn. now rewrite E.
Qed.

Lemma concat_nil segs : full segs -> concat segs = [] -> segs = [].
Proof. intros [|l more Hl _]; [reflexivity|]. cbn. intros E. apply app_eq_nil in E. tauto. Qed.

(** In particular the last message is delivered. *)
Theorem C74_delivered : forall mk segs j e msg v rest, full segs -> Forall is_byte (concat segs) -> fails e ->
  Receives (concat segs) msg [] -> decode mk msg = DOk v rest ->
  late_decodes mk 2 (Late segs j e) = [DVal v; DFail (DEStream e)].
Proof.
  intros mk segs j e msg v rest HF HB HE HR HD. rewrite C74_joint by assumption.
  pose proof (read_msg_took (apart 2 segs e)) as T. rewrite rbytes_apart in T. specialize (T HB).
  cbn [decodes]. unfold Decode at 1. destruct (read_msg (apart 2 segs e)) as [m r'|e' r'|]; [| |contradiction].
  - destruct T as (w & (cs & HC & <-) & T). destruct (took_apart _ _ _ _ _ T _ HF eq_refl) as (segs' & HF' & ->).
    pose proof (Took_bytes _ _ _ T) as B. rewrite !rbytes_apart in B.
    destruct (Receives_unique (concat segs) (concat cs) msg (concat segs') []) as [-> N]; trivial.
    { exists w. split; [exact B|]. now exists cs. }
    rewrite HD. apply concat_nil in N; [|exact HF']. subst segs'.
    unfold Decode, read_msg. rewrite apart_nil_fails by exact HE. reflexivity.
  - destruct T as (b & l & r1 & T & U & F). destruct (took_apart _ _ _ _ _ T _ HF eq_refl) as (segs' & HF' & ->).
    pose proof (Took_bytes _ _ _ T) as B. rewrite !rbytes_apart in B. exfalso.
    destruct segs' as [|x segs'].
    + cbn in B. rewrite app_nil_r in B. rewrite B in HR. exact (unfinished_no_message _ _ U _ _ HR).
    + destruct (full_inv _ _ HF'). unfold apart in F. cbn [map app] in F. inversion F. congruence.
Qed.

(** conn.go:320-337 boltConn.Read and conn.go:238-261 handShake, with this reader: the error is only looked at when
    there are not exactly four bytes. *)
Definition err_of (e : rstatus) : gerr := match e with REof => EEOF | _ => EBadConn end.
Definition late_handshake (w : wcall) (r : late) : option gerr * late :=
  if negb (wc_n w =? 20) then (if wc_err w then Some (ewrap FConn 244 EBadConn) else None, r)
  else
    let '(b, err, r') := late_read 4 r in
    if negb (zlen b =? 4) then (option_map (fun e => ewrap FConn 253 (err_of e)) err, r')
    else if str_eqb b [0; 0; 0; 0] then (Some (enew FConn 257), r')
    else (None, r').

(** An answer of four bytes counts, whatever comes with it.  A shorter answer is only noticed when the end comes with
    it (C20: it is not when the end comes later). *)
Theorem C74_handshake : forall w l more j e, l <> [] -> fails e ->
  fst (late_handshake w (Late (l :: more) j e)) =
  if (wc_n w =? 20) && (zlen l <? 4) && j && (match more with [] => true | _ => false end)
  then Some (ewrap FConn 253 (err_of e))
  else fst (handshake w (apart 1 (l :: more) e)).
Proof.
  intros w l more j e Hl HE. unfold late_handshake, handshake.
  destruct (wc_n w =? 20); cbn [negb andb]; [|destruct (wc_err w); reflexivity].
  unfold apart. cbn [late_read map app read_once]. destruct (4 <? zlen l) eqn:C.
  - replace (zlen l <? 4) with false by lia. replace (zlen l <=? 4) with false by lia. cbn [andb].
    rewrite zlen_ztake by lia. replace (Z.min 4 (zlen l) =? 4) with true by lia. cbn [negb].
    destruct (str_eqb _ _); reflexivity.
  - replace (zlen l <=? 4) with true by lia. destruct (zlen l <? 4) eqn:C4; cbn [andb].
    + replace (zlen l =? 4) with false by lia. cbn [negb]. destruct more, j; reflexivity.
    + replace (zlen l =? 4) with true by lia. cbn [negb]. destruct (str_eqb _ _); reflexivity.
Qed.

(** The message is not lost: a SUCCESS in one chunk, the terminator coming with the end of the stream, in one segment
    and in three; and a chunk that comes with the end, which is only the beginning of a message. *)
Example C74_example :
  late_decodes false 2 (Late [[0; 3; 0xB1; 0x70; 0xA0; 0; 0]] true REof) = [DVal (VSuccess []); DFail (DEStream REof)] /\
  late_decodes false 2 (Late [[0; 3; 0xB1]; [0x70; 0xA0; 0]; [0]] true RBad) = [DVal (VSuccess []); DFail (DEStream RBad)] /\
  late_decodes false 2 (Late [[0; 3; 0xB1]; [0x70; 0xA0]] true RBad) = [DFail (DEStream RBad); DFail (DEStream RBad)] /\
  late_handshake {| wc_n := 20; wc_err := false |} (Late [[0; 0; 0; 1]] true REof) = (None, Late [] true REof) /\
  late_handshake {| wc_n := 20; wc_err := false |} (Late [[0]] true REof) = (Some (ewrap FConn 253 EEOF), Late [] true REof) /\
  (full [[0; 3; 0xB1]; [0x70; 0xA0; 0]; [0]] /\ Receives (concat [[0; 3; 0xB1]; [0x70; 0xA0; 0]; [0]]) [0xB1; 0x70; 0xA0] []).
Proof.
  repeat split; try reflexivity; try (repeat constructor; discriminate).
  exists [0; 3; 0xB1; 0x70; 0xA0; 0; 0]. split; [reflexivity|]. exists [[0xB1; 0x70; 0xA0]]. split; [|reflexivity].
  apply (Ch_chunk [0xB1; 0x70; 0xA0] [0; 3] [] [0; 0]); [cbn; lia| |constructor].
  repeat split; repeat constructor; unfold is_byte; lia.
Qed.

Print Assumptions C74_joint.
Print Assumptions C74_delivered.
Print Assumptions C74_handshake.
