(** Arithmetic and list lemmas about [GoPrims] and the byte-level part of
    [PackSpec]. *)
From Coq Require Import ZArith List Bool Lia.
From Coq Require Import ZifyBool.
From Verif Require Import GoPrims Value PackSpec.
Import ListNotations.
Open Scope Z_scope.

(** ** zlen *)
Lemma zlen_nil {A} : zlen (@nil A) = 0.  Proof. reflexivity. Qed.
Lemma zlen_cons {A} (x : A) l : zlen (x :: l) = 1 + zlen l.
Proof. unfold zlen. cbn [length]. lia. Qed.
Lemma zlen_app {A} (a b : list A) : zlen (a ++ b) = zlen a + zlen b.
Proof. unfold zlen. rewrite app_length. lia. Qed.
Lemma zlen_nonneg {A} (l : list A) : 0 <= zlen l.
Proof. unfold zlen. lia. Qed.
Lemma zlen_map {A B} (f : A -> B) l : zlen (map f l) = zlen l.
Proof. unfold zlen. now rewrite map_length. Qed.
Lemma zlen_zero {A} (l : list A) : zlen l = 0 -> l = [].
Proof. destruct l; [reflexivity|]. rewrite zlen_cons. pose proof (zlen_nonneg l). lia. Qed.
Lemma zlen_repeat {A} (x : A) n : zlen (repeat x n) = Z.of_nat n.
Proof. unfold zlen. now rewrite repeat_length. Qed.

Ltac zl := repeat progress (rewrite ?zlen_app, ?zlen_cons, ?zlen_nil, ?(@zlen_nil Z), ?(@zlen_nil (list Z)), ?(@zlen_nil bytes), ?zlen_map in *).

(** ** ztake / zdrop *)
Lemma ztake_zdrop {A} n (l : list A) : ztake n l ++ zdrop n l = l.
Proof. apply firstn_skipn. Qed.

Lemma ztake_app {A} (a b : list A) : ztake (zlen a) (a ++ b) = a.
Proof.
  unfold ztake. rewrite zlen_app. pose proof (zlen_nonneg b).
  rewrite Z.min_l by lia. unfold zlen. rewrite Nat2Z.id.
  rewrite firstn_app, Nat.sub_diag, firstn_all, firstn_O. apply app_nil_r.
Qed.
Lemma zdrop_app {A} (a b : list A) : zdrop (zlen a) (a ++ b) = b.
Proof.
  unfold zdrop. rewrite zlen_app. pose proof (zlen_nonneg b).
  rewrite Z.min_l by lia. unfold zlen. rewrite Nat2Z.id.
  rewrite skipn_app, Nat.sub_diag, skipn_all. reflexivity.
Qed.
Lemma ztake_app' {A} n (a b : list A) : zlen a = n -> ztake n (a ++ b) = a.
Proof. intros <-. apply ztake_app. Qed.
Lemma zdrop_app' {A} n (a b : list A) : zlen a = n -> zdrop n (a ++ b) = b.
Proof. intros <-. apply zdrop_app. Qed.

Lemma zlen_ztake {A} n (l : list A) : 0 <= n -> zlen (ztake n l) = Z.min n (zlen l).
Proof.
  intros Hn. unfold ztake, zlen. rewrite firstn_length.
  pose proof (zlen_nonneg l). unfold zlen in *. lia.
Qed.
Lemma zlen_zdrop {A} n (l : list A) : 0 <= n -> zlen (zdrop n l) = zlen l - Z.min n (zlen l).
Proof.
  intros Hn. unfold zdrop, zlen. rewrite skipn_length.
  pose proof (zlen_nonneg l). unfold zlen in *. lia.
Qed.
Lemma ztake_all {A} n (l : list A) : zlen l <= n -> ztake n l = l.
Proof.
  intros Hn. unfold ztake. rewrite Z.min_r by lia. unfold zlen. rewrite Nat2Z.id. apply firstn_all.
Qed.
Lemma zdrop_all {A} n (l : list A) : zlen l <= n -> zdrop n l = [].
Proof.
  intros Hn. unfold zdrop. rewrite Z.min_r by lia. unfold zlen. rewrite Nat2Z.id. apply skipn_all.
Qed.
Lemma ztake_0 {A} (l : list A) : ztake 0 l = [].
Proof. unfold ztake. pose proof (zlen_nonneg l). now rewrite Z.min_l. Qed.
Lemma zdrop_0 {A} (l : list A) : zdrop 0 l = l.
Proof. unfold zdrop. pose proof (zlen_nonneg l). now rewrite Z.min_l. Qed.

(** [l] cut at [n] splits the list. *)
Lemma zsplit {A} n (l : list A) : 0 <= n <= zlen l ->
  exists a b, l = a ++ b /\ zlen a = n /\ ztake n l = a /\ zdrop n l = b.
Proof.
  intros Hn. exists (ztake n l), (zdrop n l). rewrite ztake_zdrop, zlen_ztake by lia. repeat split; lia.
Qed.

Lemma ztake_app_l {A} n (a b : list A) : n <= zlen a -> ztake n (a ++ b) = ztake n a.
Proof.
  intros Hn. unfold ztake. rewrite zlen_app. pose proof (zlen_nonneg b).
  rewrite !Z.min_l by lia. rewrite firstn_app.
  replace (Z.to_nat n - length a)%nat with O by (unfold zlen in *; lia).
  rewrite firstn_O. apply app_nil_r.
Qed.
Lemma zdrop_app_l {A} n (a b : list A) : n <= zlen a -> zdrop n (a ++ b) = zdrop n a ++ b.
Proof.
  intros Hn. unfold zdrop. rewrite zlen_app. pose proof (zlen_nonneg b).
  rewrite !Z.min_l by lia. rewrite skipn_app.
  replace (Z.to_nat n - length a)%nat with O by (unfold zlen in *; lia). reflexivity.
Qed.
Lemma ztake_app_r {A} n (a b : list A) : zlen a <= n -> ztake n (a ++ b) = a ++ ztake (n - zlen a) b.
Proof.
  intros Hn. unfold ztake. rewrite zlen_app, firstn_app.
  pose proof (zlen_nonneg a). pose proof (zlen_nonneg b).
  rewrite firstn_all2 by (unfold zlen in *; lia). f_equal. f_equal. unfold zlen in *. lia.
Qed.
Lemma zdrop_app_r {A} n (a b : list A) : zlen a <= n -> zdrop n (a ++ b) = zdrop (n - zlen a) b.
Proof.
  intros Hn. unfold zdrop. rewrite zlen_app, skipn_app.
  pose proof (zlen_nonneg a). pose proof (zlen_nonneg b).
  rewrite skipn_all2 by (unfold zlen in *; lia). cbn [app]. f_equal. unfold zlen in *. lia.
Qed.

(** ** powers *)
Lemma pow256 n : 0 <= n -> 256 ^ n = 2 ^ (8 * n).
Proof. intros Hn. rewrite Z.pow_mul_r by lia. reflexivity. Qed.

(** ** wraps *)
Lemma wraps_id w z : 0 < w -> - 2 ^ (w - 1) <= z < 2 ^ (w - 1) -> wraps w z = z.
Proof.
  intros Hw Hz. unfold wraps.
  assert (H2 : 2 ^ w = 2 * 2 ^ (w - 1)).
  { replace w with (1 + (w - 1)) at 1 by lia. rewrite Z.pow_add_r by lia. reflexivity. }
  rewrite Z.mod_small by lia. lia.
Qed.
Lemma wraps_mod w z : 0 < w -> wraps w z mod 2 ^ w = z mod 2 ^ w.
Proof.
  intros Hw. unfold wraps. rewrite Zminus_mod_idemp_l. f_equal. lia.
Qed.
Lemma wraps_of_mod w z : 0 < w -> wraps w (z mod 2 ^ w) = wraps w z.
Proof.
  intros Hw. unfold wraps. now rewrite Zplus_mod_idemp_l.
Qed.
Lemma wraps_range w z : 0 < w -> - 2 ^ (w - 1) <= wraps w z < 2 ^ (w - 1).
Proof.
  intros Hw. unfold wraps.
  assert (H2 : 2 ^ w = 2 * 2 ^ (w - 1)).
  { replace w with (1 + (w - 1)) at 1 by lia. rewrite Z.pow_add_r by lia. reflexivity. }
  assert (0 < 2 ^ (w - 1)) by (apply Z.pow_pos_nonneg; lia).
  pose proof (Z.mod_pos_bound (z + 2 ^ (w - 1)) (2 ^ w)). lia.
Qed.
Lemma wraps_high w z : 0 < w -> 2 ^ (w - 1) <= z < 2 ^ w -> wraps w z = z - 2 ^ w.
Proof.
  intros Hw Hz. unfold wraps.
  assert (H2 : 2 ^ w = 2 * 2 ^ (w - 1)).
  { replace w with (1 + (w - 1)) at 1 by lia. rewrite Z.pow_add_r by lia. reflexivity. }
  replace (z + 2 ^ (w - 1)) with ((z - 2 ^ (w - 1)) + 1 * 2 ^ w) by lia.
  rewrite Z_mod_plus_full, Z.mod_small by lia. lia.
Qed.

(** ** big endian *)
Lemma be_length n z : length (be n z) = n.
Proof. induction n as [|n IH]; cbn [be length]; congruence. Qed.
Lemma zlen_be n z : zlen (be n z) = Z.of_nat n.
Proof. unfold zlen. now rewrite be_length. Qed.
Lemma be_bytes n z : Forall is_byte (be n z).
Proof.
  induction n as [|n IH]; cbn [be]; constructor; [|exact IH].
  unfold is_byte. apply Z.mod_pos_bound. lia.
Qed.
Lemma be_value_be n z : be_value (be n z) = z mod 256 ^ Z.of_nat n.
Proof.
  induction n as [|n IH].
  - cbn. now rewrite Z.mod_1_r.
  - cbn [be be_value]. rewrite zlen_be, IH.
    replace (Z.of_nat (S n)) with (1 + Z.of_nat n) by lia.
    rewrite Z.pow_add_r by lia. change (256 ^ 1) with 256.
    rewrite (Z.mul_comm 256 (256 ^ Z.of_nat n)).
    rewrite (Z.rem_mul_r z (256 ^ Z.of_nat n) 256) by (try apply Z.pow_nonzero; lia).
    lia.
Qed.
Lemma be_mod n z : be n (z mod 256 ^ Z.of_nat n) = be n z.
Proof.
  assert (H : forall m k x, (m <= k)%nat -> be m (x mod 256 ^ Z.of_nat k) = be m x).
  { induction m as [|m IH]; intros k x Hk; [reflexivity|].
    cbn [be]. rewrite IH by lia. f_equal.
    replace (Z.of_nat k) with (Z.of_nat m + (1 + (Z.of_nat k - Z.of_nat m - 1))) by lia.
    rewrite Z.pow_add_r by lia.
    rewrite Z.rem_mul_r by (try apply Z.pow_nonzero; try apply Z.pow_pos_nonneg; lia).
    rewrite Z.pow_add_r by lia. change (256 ^ 1) with 256.
    rewrite (Z.add_comm (x mod _)), (Z.mul_comm (256 ^ Z.of_nat m)), Z.div_add_l by (apply Z.pow_nonzero; lia).
    rewrite (Z.div_small (x mod 256 ^ Z.of_nat m)) by (apply Z.mod_pos_bound; apply Z.pow_pos_nonneg; lia).
    rewrite Z.add_0_r.
    rewrite Z.rem_mul_r by (try apply Z.pow_pos_nonneg; lia).
    rewrite (Z.mul_comm 256), Z.mod_add by lia.
    apply Z.mod_mod; lia. }
  apply H. lia.
Qed.
Lemma be_value_bound bs : Forall is_byte bs -> 0 <= be_value bs < 256 ^ zlen bs.
Proof.
  induction 1 as [|b bs Hb Hbs IH]; [cbn; lia|].
  cbn [be_value]. zl. rewrite Z.pow_add_r by (pose proof (zlen_nonneg bs); lia).
  change (256 ^ 1) with 256. unfold is_byte in Hb. nia.
Qed.
Lemma fold_be_value bs acc :
  fold_left (fun a b => a * 256 + b) bs acc = acc * 256 ^ zlen bs + be_value bs.
Proof.
  revert acc. induction bs as [|b bs IH]; intros acc; cbn [fold_left be_value].
  - rewrite zlen_nil. lia.
  - rewrite IH. zl. rewrite Z.pow_add_r by (pose proof (zlen_nonneg bs); lia).
    change (256 ^ 1) with 256. lia.
Qed.
Lemma ube_be_value bs : ube bs = be_value bs.
Proof. unfold ube. now rewrite fold_be_value. Qed.
Lemma be_value_inj a b : Forall is_byte a -> Forall is_byte b -> zlen a = zlen b ->
  be_value a = be_value b -> a = b.
Proof.
  intros Ha; revert b. induction Ha as [|x a Hx Ha IH]; intros b Hb Hl Hv.
  - symmetry. apply zlen_zero. rewrite <- Hl. reflexivity.
  - destruct b as [|y b]; [zl; pose proof (zlen_nonneg a); lia|].
    inversion Hb as [|? ? Hy Hb']; subst. zl. assert (Hlab : zlen a = zlen b) by lia.
    cbn [be_value] in Hv. rewrite Hlab in Hv.
    pose proof (be_value_bound a Ha) as Ba. pose proof (be_value_bound b Hb') as Bb.
    rewrite Hlab in Ba. unfold is_byte in *.
    assert (x = y) by nia. subst y. f_equal. apply IH; try assumption. lia.
Qed.

Lemma BE_be k z : 0 <= k -> BE k (z mod 256 ^ k) (be (Z.to_nat k) z).
Proof.
  intros Hk. repeat split.
  - rewrite zlen_be. lia.
  - apply be_bytes.
  - rewrite be_value_be. rewrite Z2Nat.id by lia. reflexivity.
Qed.
Lemma BE_small k z : 0 <= k -> 0 <= z < 256 ^ k -> BE k z (be (Z.to_nat k) z).
Proof.
  intros Hk Hz. rewrite <- (Z.mod_small z (256 ^ k)) at 1 by lia. now apply BE_be.
Qed.
Lemma BE_inj k n a b : BE k n a -> BE k n b -> a = b.
Proof.
  intros (La & Fa & Va) (Lb & Fb & Vb). apply be_value_inj; try assumption; congruence.
Qed.
Lemma BE_bound k n bs : BE k n bs -> 0 <= n < 256 ^ k.
Proof. intros (L & F & V). subst k n. now apply be_value_bound. Qed.
Lemma BE_ube k n bs : BE k n bs -> ube bs = n.
Proof. intros (_ & _ & V). now rewrite ube_be_value. Qed.

(** Two's complement. *)
Lemma TC_be k z : 0 < k -> - 2 ^ (8 * k - 1) <= z < 2 ^ (8 * k - 1) -> TC k z (be (Z.to_nat k) z).
Proof.
  intros Hk Hz. split; [exact Hz|].
  assert (H2 : 2 ^ (8 * k) = 2 * 2 ^ (8 * k - 1)).
  { replace (8 * k) with (1 + (8 * k - 1)) at 1 by lia. rewrite Z.pow_add_r by lia. reflexivity. }
  replace (if z <? 0 then z + 2 ^ (8 * k) else z) with (z mod 256 ^ k).
  - apply BE_be. lia.
  - rewrite pow256 by lia. destruct (z <? 0) eqn:E.
    + rewrite <- (Z_mod_plus_full z 1 (2 ^ (8 * k))). rewrite Z.mod_small by lia. lia.
    + rewrite Z.mod_small by lia. reflexivity.
Qed.
Lemma TC_sbe k z bs : 0 < k -> TC k z bs -> sbe bs = z.
Proof.
  intros Hk (Hz & HB). unfold sbe.
  assert (H2 : 2 ^ (8 * k) = 2 * 2 ^ (8 * k - 1)).
  { replace (8 * k) with (1 + (8 * k - 1)) at 1 by lia. rewrite Z.pow_add_r by lia. reflexivity. }
  destruct HB as (L & F & V). rewrite L, ube_be_value, V.
  destruct (z <? 0) eqn:E.
  - rewrite wraps_high by lia. lia.
  - apply wraps_id; lia.
Qed.
Lemma TC_inj k z a b : TC k z a -> TC k z b -> a = b.
Proof. intros (_ & A) (_ & B). eapply BE_inj; eassumption. Qed.
Lemma TC_len k z bs : TC k z bs -> zlen bs = k.
Proof. now intros (_ & L & _). Qed.
Lemma BE_len k z bs : BE k z bs -> zlen bs = k.
Proof. now intros (L & _). Qed.
Lemma TC_val_inj k z z' bs : 0 < k -> TC k z bs -> TC k z' bs -> z = z'.
Proof. intros Hk A B. rewrite <- (TC_sbe k z bs), <- (TC_sbe k z' bs); trivial. Qed.
Lemma BE_val_inj k n n' bs : BE k n bs -> BE k n' bs -> n = n'.
Proof. intros (_ & _ & A) (_ & _ & B). congruence. Qed.

(** ** str_eqb, mput, mget *)
Lemma str_eqb_eq a b : str_eqb a b = true <-> a = b.
Proof.
  revert b; induction a as [|x a IH]; intros [|y b]; cbn; split; try congruence; try discriminate.
  - intros H. apply andb_true_iff in H. destruct H as [H1 H2]. apply IH in H2. f_equal; [lia|exact H2].
  - intros H. injection H as -> ->. rewrite Z.eqb_refl. now apply IH.
Qed.
Lemma str_eqb_refl a : str_eqb a a = true.  Proof. now apply str_eqb_eq. Qed.
Lemma str_eqb_neq a b : str_eqb a b = false <-> a <> b.
Proof. rewrite <- str_eqb_eq. destruct (str_eqb a b); split; congruence. Qed.
Lemma str_eq_dec (a b : str) : {a = b} + {a <> b}.
Proof. destruct (str_eqb a b) eqn:E; [left; now apply str_eqb_eq | right; now apply str_eqb_neq]. Qed.

Lemma mput_fresh {A} k (v : A) m : ~ In k (map fst m) -> mput k v m = m ++ [(k, v)].
Proof.
  induction m as [|[k' v'] m IH]; intros H; [reflexivity|]. cbn in *.
  destruct (str_eqb k k') eqn:E; [apply str_eqb_eq in E; subst; tauto|].
  rewrite IH by tauto. reflexivity.
Qed.
Lemma mget_mput {A} k k' (v : A) m :
  mget k (mput k' v m) = if str_eqb k k' then Some v else mget k m.
Proof.
  induction m as [|[k0 v0] m IH]; cbn; [destruct (str_eqb k k'); reflexivity|].
  destruct (str_eqb k' k0) eqn:E; cbn.
  - apply str_eqb_eq in E; subst k0. destruct (str_eqb k k'); reflexivity.
  - rewrite IH. destruct (str_eqb k k0) eqn:E0; [|reflexivity].
    destruct (str_eqb k k') eqn:E1; [|reflexivity].
    apply str_eqb_eq in E0; apply str_eqb_eq in E1; subst. rewrite str_eqb_refl in E. discriminate.
Qed.
Lemma mput_keys {A} k (v : A) m x : In x (map fst (mput k v m)) <-> x = k \/ In x (map fst m).
Proof.
  induction m as [|[k0 v0] m IH]; cbn; [intuition|].
  destruct (str_eqb k k0) eqn:E; cbn; [apply str_eqb_eq in E; subst; intuition|].
  rewrite IH. intuition.
Qed.
Lemma mput_nodup {A} k (v : A) m : NoDup (map fst m) -> NoDup (map fst (mput k v m)).
Proof.
  induction m as [|[k0 v0] m IH]; cbn; intros H.
  - constructor; [easy|constructor].
  - inversion H as [|? ? Hn Hd]; subst. destruct (str_eqb k k0) eqn:E; cbn.
    + apply str_eqb_eq in E; subst. now constructor.
    + constructor; [|now apply IH]. rewrite mput_keys. apply str_eqb_neq in E. intuition.
Qed.
