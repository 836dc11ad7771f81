(** Map iteration order. *)
From Coq Require Import ZArith List Bool Lia Permutation.
From Coq Require Import ZifyBool.
From Verif Require Import GoPrims Value PackSpec PrimLemmas Encoder EncoderProofs PackProofs
  Decoder DecoderProofs RoundTrip Framing CodecProofs.
Import ListNotations.
Open Scope Z_scope.

Lemma Forall2_refl {A} (R : A -> A -> Prop) l : (forall x, R x x) -> Forall2 R l l.
Proof. intros H. induction l; constructor; auto. Qed.
Lemma Forall2_zlen {A B} (R : A -> B -> Prop) l l' : Forall2 R l l' -> zlen l = zlen l'.
Proof. induction 1; [reflexivity|]. zl. lia. Qed.
Lemma Permutation_zlen {A} (l l' : list A) : Permutation l l' -> zlen l = zlen l'.
Proof. intros H. unfold zlen. now rewrite (Permutation_length H). Qed.

Lemma reorderm_refl m : reorderm m m.
Proof. econstructor; [reflexivity|]. apply Forall2_refl. intros x. split; [reflexivity|apply ro_refl]. Qed.

(** Structure by structure. *)
Lemma reorder_structure v v' sig fs : reorder v v' -> structure_of v = Some (sig, fs) ->
  exists fs', structure_of v' = Some (sig, fs') /\ Forall2 reorder fs fs'.
Proof.
  intros H E. assert (R : forall x, reorder x x) by exact ro_refl.
  inversion H; subst; cbn [structure_of] in E; try discriminate; cbn [structure_of];
    try (injection E as <- <-; eexists; split; [reflexivity|];
         repeat first [ apply Forall2_nil | apply Forall2_cons; [first [apply R|constructor; assumption]|]]; fail).
  - eexists; split; [eassumption|]. now apply Forall2_refl.
  - injection E as <- <-. eexists; split; [reflexivity|assumption].
Qed.

Lemma reorder_slice_inv l v' : reorder (VSlice l) v' -> exists l', v' = VSlice l' /\ Forall2 reorder l l'.
Proof. intros H. inversion H; subst; eexists; (split; [reflexivity|]); [apply Forall2_refl, ro_refl|assumption]. Qed.
Lemma reorder_tslice_inv l v' : reorder (VTSlice l) v' -> exists l', v' = VTSlice l' /\ Forall2 reorder l l'.
Proof. intros H. inversion H; subst; eexists; (split; [reflexivity|]); [apply Forall2_refl, ro_refl|assumption]. Qed.
Lemma reorder_map_inv m v' : reorder (VMap m) v' -> exists m', v' = VMap m' /\ reorderm m m'.
Proof. intros H. inversion H; subst; eexists; (split; [reflexivity|]); [apply reorderm_refl|assumption]. Qed.

Lemma Forall2_iff {A} (R : A -> A -> Prop) (P : A -> Prop) l l' : Forall2 R l l' ->
  Forall (fun x => forall y, R x y -> (P x <-> P y)) l -> (Forall P l <-> Forall P l').
Proof.
  induction 1 as [|x y l l' H HF IH]; intros F; [reflexivity|]. inversion F; subst. rewrite !Forall_cons_iff.
  rewrite (H2 _ H), IH by assumption. reflexivity.
Qed.
Lemma Forall2_imp {A} (R : A -> A -> Prop) (P : A -> Prop) l l' : Forall2 R l l' ->
  Forall (fun x => forall y, R x y -> P x -> P y) l -> Forall P l -> Forall P l'.
Proof.
  induction 1 as [|x y l l' H HF IH]; intros F FP; [constructor|]. inversion F; subst. inversion FP; subst.
  constructor; eauto.
Qed.

(** Acceptance *)
Lemma reorder_accepted v : forall v', reorder v v' -> (accepted (enc v) <-> accepted (enc v')).
Proof.
  induction v as [|b|k z|b|b|s|l IH|l IH|m IH|v sig fs Hs IH|] using goval_view_ind; intros v' R;
    try (inversion R; subst; [reflexivity|discriminate..]); try (inversion R; subst; reflexivity).
  - apply reorder_slice_inv in R. destruct R as (l' & -> & F). cbn [enc]. rewrite !enc_slice_accepted, !zlen_map, !Forall_map.
    rewrite (Forall2_zlen _ _ _ F). rewrite (Forall2_iff reorder (fun x => accepted (enc x)) l l' F IH). reflexivity.
  - apply reorder_tslice_inv in R. destruct R as (l' & -> & F). cbn [enc]. rewrite !enc_slice_accepted, !zlen_map, !Forall_map.
    rewrite (Forall2_zlen _ _ _ F). rewrite (Forall2_iff reorder (fun x => accepted (enc x)) l l' F IH). reflexivity.
  - apply reorder_map_inv in R. destruct R as (m' & -> & RM). inversion RM as [x0 m1 x1 HP F]; subst. cbn [enc].
    rewrite !enc_map_accepted, !zlen_map, !Forall_map.
    rewrite (Permutation_zlen _ _ HP), (Forall2_zlen _ _ _ F).
    set (Q := fun x : str * goval => pair_accepted (enc_str (fst x), enc (snd x))).
    assert (E : Forall Q m <-> Forall Q m').
    { assert (E1 : Forall Q m <-> Forall Q m1) by (split; apply Permutation_Forall; [|symmetry]; assumption). rewrite E1.
      apply (Forall2_iff _ Q _ _ F). apply (Permutation_Forall HP) in IH. revert IH. apply Forall_impl.
      intros [k x] Hx [k' x'] [Hk Hr]. cbn [fst snd] in *. subst k'. unfold Q, pair_accepted. cbn [fst snd].
      rewrite (Hx _ Hr). reflexivity. }
    split; intros [H1 H2]; (split; [exact H1|]); [apply (proj1 E)|apply (proj2 E)]; exact H2.
  - destruct (reorder_structure _ _ _ _ R Hs) as (fs' & Hs' & F).
    rewrite (enc_structure_of _ _ _ Hs), (enc_structure_of _ _ _ Hs').
    rewrite !enc_structure_accepted, !zlen_map, !Forall_map. rewrite (Forall2_zlen _ _ _ F).
    rewrite (Forall2_iff reorder (fun x => accepted (enc x)) fs fs' F IH). reflexivity.
Qed.

(** Typing *)
Lemma wtm_reorder m m' : Forall (fun kv => forall v', reorder (snd kv) v' -> wt (snd kv) -> wt v') m ->
  reorderm m m' -> wtm m -> wtm m'.
Proof.
  intros IH R W. inversion R as [x0 m1 x1 HP F]; subst. inversion W as [x2 HN HK HV]; subst.
  assert (K : map fst m1 = map fst m'). { clear -F. induction F as [|x y ? ? [E _] _ IHF]; cbn; [reflexivity|]. now rewrite E, IHF. }
  constructor.
  - rewrite <- K. eapply Permutation_NoDup; [|exact HN]. now apply Permutation_map.
  - apply (Permutation_Forall HP) in HK. clear -F HK.
    induction F as [|x y ? ? [E _] _ IHF]; [constructor|]. inversion HK; subst. constructor; [now rewrite <- E|auto].
  - apply (Permutation_Forall HP) in HV. apply (Permutation_Forall HP) in IH. clear -F HV IH.
    induction F as [|x y ? ? [_ E] _ IHF]; [constructor|]. inversion HV; subst. inversion IH; subst. constructor; auto.
Qed.

Lemma nodes_reorder l l' : Forall2 reorder l l' ->
  Forall (fun v => exists i l p, v = VNode i l p) l -> Forall (fun v => exists i l p, v = VNode i l p) l'.
Proof.
  induction 1 as [|x y l l' E _ IH]; intros F; [constructor|]. inversion F as [|? ? (i & l0 & p & ->) F']; subst.
  constructor; [|auto]. inversion E; subst; eauto.
Qed.
Lemma urels_reorder l l' : Forall2 reorder l l' ->
  Forall (fun v => exists i t p, v = VURel i t p) l -> Forall (fun v => exists i t p, v = VURel i t p) l'.
Proof.
  induction 1 as [|x y l l' E _ IH]; intros F; [constructor|]. inversion F as [|? ? (i & l0 & p & ->) F']; subst.
  constructor; [|auto]. inversion E; subst; eauto.
Qed.

Lemma wt_reorder v : forall v', reorder v v' -> wt v -> wt v'.
Proof.
  induction v as [|b|k z|b|b|s|l IH|l IH|m IH|v sig fs Hs IH|] using goval_view_ind; intros v' R W;
    try (inversion R; subst; assumption).
  - apply reorder_slice_inv in R. destruct R as (l' & -> & F). inversion W; subst. constructor.
    eapply Forall2_imp; eassumption.
  - apply reorder_tslice_inv in R. destruct R as (l' & -> & F). inversion W; subst. constructor.
    eapply Forall2_imp; eassumption.
  - apply reorder_map_inv in R. destruct R as (m' & -> & RM). inversion W; subst. constructor. eapply wtm_reorder; eassumption.
  - assert (MM : forall m m', In (VMap m) fs -> reorderm m m' -> wtm m -> wtm m').
    { intros m m' Hi Hr Hw. rewrite Forall_forall in IH. specialize (IH _ Hi (VMap m')).
      assert (wt (VMap m')) by (apply IH; now constructor). now inversion H; subst. }
    assert (LL : forall l l', In (VSlice l) fs -> Forall2 reorder l l' -> Forall wt l -> Forall wt l').
    { intros l l' Hi Hr Hw. rewrite Forall_forall in IH. specialize (IH _ Hi (VSlice l')).
      assert (wt (VSlice l')) by (apply IH; now constructor). now inversion H; subst. }
    inversion R; subst; try assumption; cbn [structure_of] in Hs; try discriminate; injection Hs as <- <-;
      inversion W; subst; constructor; try assumption;
      try (eapply MM; [|eassumption|eassumption]; cbn; tauto);
      try (eapply LL; [|eassumption|eassumption]; cbn; tauto).
    + eapply nodes_reorder; eassumption.
    + eapply urels_reorder; eassumption.
    + eapply Forall2_imp; eassumption.
Qed.

(** Transmissible values *)
Lemma Sub_slice_inv w l : Sub w (VSlice l) -> w = VSlice l \/ exists x, In x l /\ Sub w x.
Proof. intros H. inversion H as [|? x ? HI HS| | |? ? ? ? ? E]; subst; [now left|right; eauto|discriminate]. Qed.
Lemma Sub_tslice_inv w l : Sub w (VTSlice l) -> w = VTSlice l \/ exists x, In x l /\ Sub w x.
Proof. intros H. inversion H as [| |? x ? HI HS| |? ? ? ? ? E]; subst; [now left|right; eauto|discriminate]. Qed.
Lemma Sub_map_inv w m : Sub w (VMap m) -> w = VMap m \/ exists k x, In (k, x) m /\ Sub w x.
Proof. intros H. inversion H as [| | |? k x ? HI HS|? ? ? ? ? E]; subst; [now left|right; eauto|discriminate]. Qed.
Lemma Sub_struct_inv w v sig fs : structure_of v = Some (sig, fs) -> Sub w v -> w = v \/ exists x, In x fs /\ Sub w x.
Proof.
  intros E H. inversion H as [| | | |? x ? sig' fs' E' HI HS]; subst; try discriminate; [now left|].
  rewrite E in E'. injection E' as <- <-. right; eauto.
Qed.
Lemma trans_inv_slice l : Transmissible (VSlice l) <-> signed_size (zlen l) /\ Forall Transmissible l.
Proof.
  split.
  - intros T. split; [exact (proj2 (T _ (Sub_refl _)))|]. rewrite Forall_forall. intros x Hx w Hw. apply T. eapply Sub_slice; eassumption.
  - intros [S F] w Hw. rewrite Forall_forall in F. apply Sub_slice_inv in Hw. destruct Hw as [->|(x & Hx & Hw)]; [now split|exact (F _ Hx _ Hw)].
Qed.
Lemma trans_inv_tslice l : Transmissible (VTSlice l) <-> signed_size (zlen l) /\ Forall Transmissible l.
Proof.
  split.
  - intros T. split; [exact (proj2 (T _ (Sub_refl _)))|]. rewrite Forall_forall. intros x Hx w Hw. apply T. eapply Sub_tslice; eassumption.
  - intros [S F] w Hw. rewrite Forall_forall in F. apply Sub_tslice_inv in Hw. destruct Hw as [->|(x & Hx & Hw)]; [now split|exact (F _ Hx _ Hw)].
Qed.
Lemma trans_inv_map m : Transmissible (VMap m) <->
  signed_size (zlen m) /\ Forall (fun kv => signed_size (zlen (fst kv)) /\ Transmissible (snd kv)) m.
Proof.
  split.
  - intros T. destruct (proj2 (T _ (Sub_refl _))) as [S1 S2]. split; [exact S1|]. rewrite Forall_forall. intros [k x] Hx.
    split; [exact (S2 _ _ Hx)|]. intros w Hw. apply T. eapply Sub_map; eassumption.
  - intros [S F] w Hw. rewrite Forall_forall in F. apply Sub_map_inv in Hw. destruct Hw as [->|(k & x & Hx & Hw)]; [|exact (proj2 (F _ Hx) _ Hw)].
    split; [exact I|]. split; [exact S|]. intros k x Hx. exact (proj1 (F _ Hx)).
Qed.
Lemma trans_inv_struct v sig fs : structure_of v = Some (sig, fs) ->
  (Transmissible v <-> kind_ok v /\ Forall Transmissible fs).
Proof.
  intros Hs. split.
  - intros T. split; [exact (proj1 (T _ (Sub_refl _)))|]. rewrite Forall_forall. intros x Hx w Hw. apply T. eapply Sub_field; eassumption.
  - intros [K F] w Hw. rewrite Forall_forall in F. apply (Sub_struct_inv _ _ _ _ Hs) in Hw. destruct Hw as [->|(x & Hx & Hw)].
    + split; [exact K|]. destruct v; try exact I; discriminate.
    + exact (F _ Hx _ Hw).
Qed.

Lemma trans_reorder v : forall v', reorder v v' -> Transmissible v -> Transmissible v'.
Proof.
  induction v as [|b|k z|b|b|s|l IH|l IH|m IH|v sig fs Hs IH|] using goval_view_ind; intros v' R T;
    try (inversion R; subst; assumption).
  - apply reorder_slice_inv in R. destruct R as (l' & -> & F). apply trans_inv_slice in T. destruct T as [S T].
    apply trans_inv_slice. split; [now rewrite <- (Forall2_zlen _ _ _ F)|]. eapply Forall2_imp; eassumption.
  - apply reorder_tslice_inv in R. destruct R as (l' & -> & F). apply trans_inv_tslice in T. destruct T as [S T].
    apply trans_inv_tslice. split; [now rewrite <- (Forall2_zlen _ _ _ F)|]. eapply Forall2_imp; eassumption.
  - apply reorder_map_inv in R. destruct R as (m' & -> & RM). inversion RM as [x0 m1 x1 HP F]; subst.
    apply trans_inv_map in T. destruct T as [S T].
    apply trans_inv_map. split; [now rewrite <- (Forall2_zlen _ _ _ F), <- (Permutation_zlen _ _ HP)|].
    apply (Permutation_Forall HP) in T. apply (Permutation_Forall HP) in IH. clear -F T IH.
    induction F as [|x y ? ? [E1 E2] _ IHF]; [constructor|]. inversion T; subst. inversion IH; subst.
    constructor; [|auto]. split; [unfold str, bytes in *; rewrite <- E1; tauto|]. eapply H3; [eassumption|tauto].
  - destruct (reorder_structure _ _ _ _ R Hs) as (fs' & Hs' & F).
    apply (trans_inv_struct _ _ _ Hs) in T. destruct T as [K T].
    apply (trans_inv_struct _ _ _ Hs'). split; [|eapply Forall2_imp; eassumption].
    inversion R; subst; try assumption; try discriminate; exact K.
Qed.

(** The canonical form *)
Lemma reorderm_canon m m' : Forall (fun kv => forall v', reorder (snd kv) v' -> reorder (canon (snd kv)) (canon v')) m ->
  reorderm m m' ->
  reorderm (map (fun kv => (fst kv, canon (snd kv))) m) (map (fun kv => (fst kv, canon (snd kv))) m').
Proof.
  intros IH R. inversion R as [x0 m1 x1 HP F]; subst. apply (ro_intro _ (map (fun kv => (fst kv, canon (snd kv))) m1)); [now apply Permutation_map|].
  apply (Permutation_Forall HP) in IH. clear -F IH.
  induction F as [|x y ? ? [E1 E2] _ IHF]; cbn [map]; [constructor|]. inversion IH; subst. constructor; [|auto].
  cbn [fst snd]. split; auto.
Qed.
Lemma Forall2_canon l l' : Forall (fun x => forall v', reorder x v' -> reorder (canon x) (canon v')) l ->
  Forall2 reorder l l' -> Forall2 reorder (map canon l) (map canon l').
Proof. intros IH F. induction F; cbn; [constructor|]. inversion IH; subst. constructor; auto. Qed.

Lemma canon_reorder v : forall v', reorder v v' -> reorder (canon v) (canon v').
Proof.
  induction v as [|b|k z|b|b|s|l IH|l IH|m IH|v sig fs Hs IH|] using goval_view_ind; intros v' R;
    try (inversion R; subst; apply ro_refl).
  - apply reorder_slice_inv in R. destruct R as (l' & -> & F). cbn [canon]. apply ro_slice. now apply Forall2_canon.
  - apply reorder_tslice_inv in R. destruct R as (l' & -> & F). cbn [canon]. apply ro_slice. now apply Forall2_canon.
  - apply reorder_map_inv in R. destruct R as (m' & -> & RM). cbn [canon]. apply ro_map. now apply reorderm_canon.
  - assert (MM : forall m m', In (VMap m) fs -> reorderm m m' ->
      reorderm (map (fun kv => (fst kv, canon (snd kv))) m) (map (fun kv => (fst kv, canon (snd kv))) m')).
    { intros m m' Hi Hr. rewrite Forall_forall in IH. specialize (IH _ Hi (VMap m') (ro_map _ _ Hr)).
      cbn [canon] in IH. inversion IH; subst; [apply reorderm_refl|assumption]. }
    assert (LL : forall l l', In (VSlice l) fs -> Forall2 reorder l l' -> Forall2 reorder (map canon l) (map canon l')).
    { intros l l' Hi Hr. rewrite Forall_forall in IH. specialize (IH _ Hi (VSlice l') (ro_slice _ _ Hr)).
      cbn [canon] in IH. inversion IH; subst; [apply Forall2_refl, ro_refl|assumption]. }
    inversion R; subst; try apply ro_refl; cbn [structure_of] in Hs; try discriminate; injection Hs as <- <-; cbn [canon];
      try (constructor; eapply MM; [cbn; tauto|assumption]);
      try (constructor; eapply LL; [cbn; tauto|assumption]); try assumption.
    constructor; (eapply LL; [cbn; tauto|assumption]).
Qed.

(** What reordering means for someone who looks a key up. *)
Lemma mget_in {A} k (m : list (str * A)) v : NoDup (map fst m) -> (mget k m = Some v <-> In (k, v) m).
Proof.
  intros N. induction m as [|[k' v'] m IH]; cbn; [split; [discriminate|contradiction]|].
  cbn in N. inversion N; subst. specialize (IH H2). destruct (str_eqb k k') eqn:E.
  - apply str_eqb_eq in E. subst. split; [intros [= <-]; now left|]. intros [[= <-]|H]; [reflexivity|].
    exfalso. apply H1. apply (in_map fst) in H. exact H.
  - apply str_eqb_neq in E. rewrite IH. split; [now right|]. intros [[= <- <-]|H]; [contradiction|assumption].
Qed.

Lemma reorderm_lookup m m' k : NoDup (map fst m) -> reorderm m m' ->
  match mget k m, mget k m' with
  | None, None => True
  | Some a, Some b => reorder a b
  | _, _ => False
  end.
Proof.
  intros N R. inversion R as [m0 m1 x1 HP F]; subst.
  assert (N1 : NoDup (map fst m1)) by (eapply Permutation_NoDup; [apply Permutation_map; exact HP|exact N]).
  assert (E : mget k m = mget k m1).
  { destruct (mget k m) as [a|] eqn:E0.
    - apply (mget_in k m a N) in E0. symmetry. apply (mget_in k m1 a N1). eapply Permutation_in; eassumption.
    - destruct (mget k m1) as [a|] eqn:E1; [|reflexivity]. apply (mget_in k m1 a N1) in E1.
      apply Permutation_sym in HP. apply (Permutation_in _ HP) in E1. apply (mget_in k m a N) in E1. congruence. }
  rewrite E. clear -F. induction F as [|[a x] [b y] ? ? [E1 E2] _ IHF]; cbn [mget]; [exact I|]. cbn [fst snd] in *. subst b.
  destruct (str_eqb k a); assumption.
Qed.

Lemma strings_le_inv_struct n v sig fs : structure_of v = Some (sig, fs) -> (strings_le n v <-> Forall (strings_le n) fs).
Proof.
  intros Hs. split.
  - intros T. rewrite Forall_forall. intros x Hx w Hw. apply T. eapply Sub_field; eassumption.
  - intros F w Hw. rewrite Forall_forall in F. apply (Sub_struct_inv _ _ _ _ Hs) in Hw. destruct Hw as [->|(x & Hx & Hw)].
    + destruct v; try exact I; discriminate.
    + exact (F _ Hx _ Hw).
Qed.
Lemma strings_le_reorder n v : forall v', reorder v v' -> strings_le n v -> strings_le n v'.
Proof.
  induction v as [|b|k z|b|b|s|l IH|l IH|m IH|v sig fs Hs IH|] using goval_view_ind; intros v' R T;
    try (inversion R; subst; assumption).
  - apply reorder_slice_inv in R. destruct R as (l' & -> & F).
    assert (T' : Forall (strings_le n) l).
    { rewrite Forall_forall. intros x Hx w Hw. apply T. eapply Sub_slice; eassumption. }
    pose proof (Forall2_imp _ _ _ _ F IH T') as T2. intros w Hw. rewrite Forall_forall in T2.
    apply Sub_slice_inv in Hw. destruct Hw as [->|(x & Hx & Hw)]; [exact I|exact (T2 _ Hx _ Hw)].
  - apply reorder_tslice_inv in R. destruct R as (l' & -> & F).
    assert (T' : Forall (strings_le n) l).
    { rewrite Forall_forall. intros x Hx w Hw. apply T. eapply Sub_tslice; eassumption. }
    pose proof (Forall2_imp _ _ _ _ F IH T') as T2. intros w Hw. rewrite Forall_forall in T2.
    apply Sub_tslice_inv in Hw. destruct Hw as [->|(x & Hx & Hw)]; [exact I|exact (T2 _ Hx _ Hw)].
  - apply reorder_map_inv in R. destruct R as (m' & -> & RM). inversion RM as [x0 m1 x1 HP F]; subst.
    assert (T' : Forall (fun kv => zlen (fst kv) <= n /\ strings_le n (snd kv)) m).
    { rewrite Forall_forall. intros [k x] Hx. split; [exact (T _ (Sub_refl _) k x Hx)|]. intros w Hw. apply T. eapply Sub_map; eassumption. }
    apply (Permutation_Forall HP) in T'. apply (Permutation_Forall HP) in IH.
    assert (T2 : Forall (fun kv => zlen (fst kv) <= n /\ strings_le n (snd kv)) m').
    { clear -F T' IH. induction F as [|x y ? ? [E1 E2] _ IHF]; [constructor|]. inversion T'; subst. inversion IH; subst.
      constructor; [|auto]. split; [unfold str, bytes in *; rewrite <- E1; tauto|]. eapply H3; [eassumption|tauto]. }
    rewrite Forall_forall in T2. intros w Hw. apply Sub_map_inv in Hw. destruct Hw as [->|(k & x & Hx & Hw)]; [|exact (proj2 (T2 _ Hx) _ Hw)].
    intros k x Hx. exact (proj1 (T2 _ Hx)).
  - destruct (reorder_structure _ _ _ _ R Hs) as (fs' & Hs' & F).
    apply (strings_le_inv_struct n _ _ _ Hs) in T. apply (strings_le_inv_struct n _ _ _ Hs').
    eapply Forall2_imp; eassumption.
Qed.

(** C12 *)
Lemma roundtrip_any_order mk v v' : wt v -> Transmissible v -> strings_le 65535 v -> reorder v v' ->
  snd (marshal v') = None /\ exists u, unmarshal mk (fst (marshal v')) = DVal u /\ reorder (canon v) u.
Proof.
  intros W T S R. destruct (roundtrip mk v') as [A E].
  - eapply wt_reorder; eassumption.
  - eapply trans_reorder; eassumption.
  - eapply strings_le_reorder; eassumption.
  - split; [exact A|]. exists (canon v'). split; [exact E|]. now apply canon_reorder.
Qed.
