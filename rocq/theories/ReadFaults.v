(** What reading a message does when reads fail, return nothing or the stream ends. *)
From Coq Require Import ZArith List Bool Lia ZifyBool.
From Verif Require Import GoPrims Value PrimLemmas PackSpec PackProofs Encoder Decoder Framing.
Import ListNotations.
Open Scope Z_scope.

(** ** Specification *)
(** The bytes [l] were read from [r], by reads that all succeeded, and [r'] is left.
    What is left of a segment is never empty. *)
Inductive Took : reader -> bytes -> reader -> Prop :=
| Took_none r : Took r [] r
| Took_empty r l r' : Took r l r' -> Took (RData [] :: r) l r'
| Took_last b r l r' : Took r l r' -> Took (RData [b] :: r) (b :: l) r'
| Took_byte b c d r l r' : Took (RData (c :: d) :: r) l r' -> Took (RData (b :: c :: d) :: r) (b :: l) r'.

(** The beginning of a message that stops in the length of a chunk ([false]) or in its
    data ([true]). *)
Inductive Unfinished : bool -> bytes -> Prop :=
| Un_length h : zlen h < 2 -> Unfinished false h
| Un_data n h c : BE 2 n h -> zlen c < n -> Unfinished true (h ++ c)
| Un_chunk h c b w : c <> [] -> BE 2 (zlen c) h -> Unfinished b w -> Unfinished b (h ++ c ++ w).

(** How the read in question ended, the error reported and what is left to read. *)
Inductive Fault : bool -> reader -> derr -> reader -> Prop :=
| F_end b : Fault b [] (DEStream REof) []
| F_bad b r : Fault b (RFail :: r) (DEStream RBad) r
| F_empty r : Fault true (RData [] :: r) DEZeroRead r.

Lemma Took_app : forall r l r', Took r l r' -> forall l2 r2, Took r' l2 r2 -> Took r (l ++ l2) r2.
Proof. induction 1; intros l2 r2 H2; cbn [app]; [exact H2|..]; constructor; auto. Qed.
Lemma Took_all : forall l r, Took (RData l :: r) l r.
Proof. induction l as [|b [|c l] IH]; intros r; [apply Took_empty|apply Took_last|apply Took_byte, IH]; constructor. Qed.
Lemma Took_prefix : forall l x r, x <> [] -> Took (RData (l ++ x) :: r) l (RData x :: r).
Proof.
  induction l as [|b l IH]; intros x r H; cbn [app]; [constructor|]. specialize (IH x r H).
  destruct l as [|c l]; cbn [app] in *; [destruct x as [|c x]; [easy|]|]; now constructor.
Qed.
Lemma Took_take n l r : 0 <= n < zlen l -> Took (RData l :: r) (ztake n l) (RData (zdrop n l) :: r).
Proof.
  intros H. pose proof (Took_prefix (ztake n l) (zdrop n l) r) as T. rewrite ztake_zdrop in T. apply T. intros E.
  pose proof (ztake_zdrop n l) as X. rewrite E, app_nil_r in X. pose proof (zlen_ztake n l ltac:(lia)) as Y. rewrite X in Y. lia.
Qed.
Lemma Took_bytes : forall r l r', Took r l r' -> rbytes r = l ++ rbytes r'.
Proof. induction 1; cbn [rbytes app] in *; congruence. Qed.

Lemma read_full_took : forall r n, 0 < n ->
  let '(l, st, r') := read_full n r in
  match st with
  | ROk => zlen l = n /\ Took r l r'
  | _ => zlen l < n /\ exists r1, Took r l r1 /\ Fault false r1 (DEStream st) r'
  end.
Proof.
  induction r as [|[l|] r IH]; intros n Hn; cbn [read_full].
  - zl. split; [lia|]. exists []. split; constructor.
  - destruct (zlen l <? n) eqn:C1.
    + specialize (IH (n - zlen l) ltac:(lia)). destruct (read_full (n - zlen l) r) as [[m st] r'].
      destruct st; zl.
      * destruct IH as [L T]. split; [lia|]. eapply Took_app; [apply Took_all|exact T].
      * destruct IH as (L & r1 & T & F). split; [lia|]. exists r1. split; [|exact F]. eapply Took_app; [apply Took_all|exact T].
      * destruct IH as (L & r1 & T & F). split; [lia|]. exists r1. split; [|exact F]. eapply Took_app; [apply Took_all|exact T].
    + destruct (zlen l =? n) eqn:C2.
      * split; [lia|]. apply Took_all.
      * split; [rewrite zlen_ztake; lia|]. apply Took_take. lia.
  - zl. split; [lia|]. eexists. split; constructor.
Qed.

Lemma read_data_took : forall r mlen total out, 0 <= total <= mlen -> zlen out = mlen ->
  match read_data mlen total out r with
  | (inl d, r') => exists l, d = ztake total out ++ l /\ zlen l = mlen - total /\ Took r l r'
  | (inr e, r') => exists l r1, Took r l r1 /\ zlen l < mlen - total /\ Fault true r1 e r'
  end.
Proof.
  assert (D : forall mlen total out r, 0 <= total <= mlen -> zlen out = mlen -> (total <? mlen) = false ->
    exists l, out = ztake total out ++ l /\ zlen l = mlen - total /\ Took r l r).
  { intros mlen total out r Ht Ho C. exists []. rewrite app_nil_r, ztake_all by lia. zl. split; [reflexivity|]. split; [lia|constructor]. }
  induction r as [|[l|] r IH]; intros mlen total out Ht Ho; cbn [read_data]; destruct (total <? mlen) eqn:C; try (eapply D; eassumption).
  - exists [], []. zl. split; [constructor|]. split; [lia|constructor].
  - set (want := mlen - total) in *. assert (LG : zlen (ztake want l) = Z.min want (zlen l)) by (apply zlen_ztake; lia).
    pose proof (zlen_nonneg l). destruct (zlen (ztake want l) =? 0) eqn:Z0.
    + assert (l = []) as -> by (destruct l; [reflexivity|]; rewrite zlen_cons in *; pose proof (zlen_nonneg l); lia).
      exists [], (RData [] :: r). split; [constructor|]. split; [zl; lia|constructor].
    + set (out' := ztake total out ++ ztake want l ++ repeat 0 (Z.to_nat (want - zlen (ztake want l)))).
      destruct (want <? zlen l) eqn:C2.
      * exists (ztake want l). unfold out'. rewrite LG, Z.min_l by lia. rewrite Z.sub_diag. cbn [Z.to_nat repeat]. rewrite app_nil_r.
        split; [reflexivity|]. split; [lia|]. apply Took_take. lia.
      * assert (Ll : zlen (ztake want l) = zlen l) by lia. rewrite Ll.
        assert (Lo : zlen out' = mlen) by (unfold out'; zl; rewrite zlen_repeat, zlen_ztake by lia; lia).
        specialize (IH mlen (total + zlen l) out' ltac:(lia) Lo).
        destruct (read_data mlen (total + zlen l) out' r) as [[d|e] r'].
        -- destruct IH as (x & -> & Lx & T). exists (l ++ x). split; [|split; [zl; lia|eapply Took_app; [apply Took_all|exact T]]].
           rewrite app_assoc. f_equal. unfold out'. rewrite app_assoc. rewrite ztake_app'.
           ++ f_equal. apply ztake_all. lia.
           ++ zl. rewrite zlen_ztake by lia. lia.
        -- destruct IH as (x & r1 & T & Lx & F). exists (l ++ x), r1. split; [eapply Took_app; [apply Took_all|exact T]|].
           split; [zl; lia|exact F].
  - exists [], (RFail :: r). zl. split; [constructor|]. split; [lia|constructor].
Qed.

Lemma read_chunks_took fuel : forall r out, Forall is_byte (rbytes r) -> (length (rbytes r) < fuel)%nat ->
  match read_chunks fuel out r with
  | FOk m r' => exists cs w, m = out ++ concat cs /\ Chunks cs w /\ Took r w r'
  | FErr e r' => exists b l r1, Took r l r1 /\ Unfinished b l /\ Fault b r1 e r'
  | FFuel => False
  end.
Proof.
  induction fuel as [|fuel IH]; intros r out HB HF; [lia|]. cbn [read_chunks].
  pose proof (read_full_took r 2 ltac:(lia)) as RF. destruct (read_full 2 r) as [[h st] r1].
  assert (K : match st with ROk => zlen h = 2 /\ Took r h r1 | _ => zlen h < 2 /\ exists r2, Took r h r2 /\ Fault false r2 (DEStream st) r1 end) by exact RF.
  destruct (zlen h =? 2) eqn:L; cbn [negb].
  2: { destruct st; [lia| |]; destruct K as (L2 & r2 & T & F); exists false, h, r2; repeat split; trivial; now constructor. }
  assert (st = ROk /\ Took r h r1) as [-> T] by (destruct st; [tauto|lia|lia]). clear RF K.
  pose proof (Took_bytes _ _ _ T) as EB. rewrite EB in HB. apply Forall_app in HB as [HBh HB1].
  pose proof (two_bytes h HBh ltac:(lia)) as HE. pose proof (BE_bound _ _ _ HE) as BB.
  destruct (ube h =? 0) eqn:Z0.
  - exists [], [0; 0]. rewrite app_nil_r. split; [reflexivity|]. split; [constructor|].
    assert (h = [0; 0]) as <-; [|exact T]. apply (BE_inj 2 0); [|exact BE2_zero]. now replace 0 with (ube h) by lia.
  - pose proof (read_data_took r1 (ube h) 0 (repeat 0 (Z.to_nat (ube h))) ltac:(lia) ltac:(rewrite zlen_repeat; lia)) as RD.
    destruct (read_data (ube h) 0 (repeat 0 (Z.to_nat (ube h))) r1) as [[d|e] r2].
    + destruct RD as (c & -> & Lc & T2). rewrite ztake_0. cbn [app]. rewrite Z.sub_0_r in Lc.
      pose proof (Took_bytes _ _ _ T2) as EB2. rewrite EB2 in HB1. apply Forall_app in HB1 as [_ HB2].
      specialize (IH r2 (out ++ c) HB2). rewrite EB, EB2, !app_length in HF. unfold zlen in L.
      specialize (IH ltac:(lia)). destruct (read_chunks fuel (out ++ c) r2) as [m r'|e r'|].
      * destruct IH as (cs & w & -> & HC & T3). exists (c :: cs), (h ++ c ++ w). cbn [concat]. rewrite app_assoc. split; [reflexivity|].
        split; [apply Ch_chunk; trivial; [lia|now rewrite Lc]|]. eapply Took_app; [exact T|]. eapply Took_app; eassumption.
      * destruct IH as (b & l & r3 & T3 & U & F). exists b, (h ++ c ++ l), r3.
        split; [eapply Took_app; [exact T|]; eapply Took_app; eassumption|]. split; [|exact F].
        apply Un_chunk; [apply pos_nonnil; lia|now rewrite Lc|exact U].
      * exact IH.
    + destruct RD as (c & r3 & T2 & Lc & F). rewrite Z.sub_0_r in Lc. exists true, (h ++ c), r3.
      split; [eapply Took_app; eassumption|]. split; [now apply (Un_data (ube h))|exact F].
Qed.

Lemma read_msg_took : forall r, Forall is_byte (rbytes r) ->
  match read_msg r with
  | FOk m r' => exists w, Frame m w /\ Took r w r'
  | FErr e r' => exists b l r1, Took r l r1 /\ Unfinished b l /\ Fault b r1 e r'
  | FFuel => False
  end.
Proof.
  intros r HB. pose proof (read_chunks_took (S (length (rbytes r))) r [] HB ltac:(lia)) as H. unfold read_msg.
  destruct (read_chunks _ _ _); [|exact H|exact H]. destruct H as (cs & w & -> & HC & T). exists w. split; [|exact T].
  exists cs. split; [exact HC|reflexivity].
Qed.

(** What is unfinished contains no complete message. *)
Lemma unfinished_no_message b l : Unfinished b l -> forall m rest, ~ Receives l m rest.
Proof.
  induction 1 as [h L|n h c HE Lc|h c b w Hc HE HU IH]; intros m rest (x & Ex & cs & HC & Em).
  - apply Chunks_len in HC. rewrite Ex in L. zl. pose proof (zlen_nonneg (concat cs)). pose proof (zlen_nonneg cs). pose proof (zlen_nonneg rest). lia.
  - pose proof (zlen_nonneg c). destruct HC as [|c' h' cs x Hc' Hh' HC].
    + destruct (app_len_inv h [0; 0] c rest) as [-> _]; [rewrite (BE_len _ _ _ HE); reflexivity|assumption|].
      pose proof (BE_val_inj _ _ _ _ HE BE2_zero). lia.
    + rewrite <- !app_assoc in Ex.
      destruct (app_len_inv h h' c (c' ++ x ++ rest)) as [-> ->]; [rewrite (BE_len _ _ _ HE), (BE_len _ _ _ Hh'); reflexivity|assumption|].
      pose proof (BE_val_inj _ _ _ _ HE Hh') as EL. rewrite EL in Lc. zl. pose proof (zlen_nonneg x). pose proof (zlen_nonneg rest). lia.
  - apply zlen_pos in Hc. destruct HC as [|c' h' cs x Hc' Hh' HC].
    + destruct (app_len_inv h [0; 0] (c ++ w) rest) as [-> _]; [rewrite (BE_len _ _ _ HE); reflexivity|assumption|].
      pose proof (BE_val_inj _ _ _ _ HE BE2_zero). lia.
    + rewrite <- !app_assoc in Ex.
      destruct (app_len_inv h h' (c ++ w) (c' ++ x ++ rest)) as [-> Ex2]; [rewrite (BE_len _ _ _ HE), (BE_len _ _ _ Hh'); reflexivity|assumption|].
      pose proof (BE_val_inj _ _ _ _ HE Hh') as EL. destruct (app_len_inv c c' w (x ++ rest) EL Ex2) as [-> Ex3].
      apply (IH (concat cs) rest). exists x. split; [assumption|]. eexists; split; [eassumption|reflexivity].
Qed.
