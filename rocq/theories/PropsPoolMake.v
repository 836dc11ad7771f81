(** C93: a pool of any size can be made, and used. *)
From Coq Require Import ZArith List Bool Arith Lia.
From Verif Require Import Session SessionGen Pool PoolInv PoolMore PoolLive PoolMake.
Import ListNotations.
Open Scope nat_scope.

Lemma fill_all : forall k j max h s, p_max s = max -> p_chan s = seq 0 j -> p_heap s = h -> length h = j -> j + k <= max ->
  fill k s = Some (with_chan (seq 0 (j + k)) (with_heap (h ++ repeat blank k) s)).
Proof.
  induction k as [|k IH]; intros j max h s Em Ec Eh El Hk; cbn [fill].
  - rewrite Nat.add_0_r, app_nil_r. f_equal. destruct s; cbn in *. subst. reflexivity.
  - rewrite Ec, seq_length, Em. replace (j <? max) with true by (symmetry; apply Nat.ltb_lt; lia).
    rewrite (IH (S j) max (h ++ [blank])); [|exact Em| |cbn; now rewrite Eh|rewrite app_length; cbn; lia|lia].
    + f_equal. rewrite <- app_assoc. replace (S j + k) with (j + S k) by lia. destruct s; reflexivity.
    + cbn. rewrite Eh, El. rewrite <- seq_S. reflexivity.
Qed.
(** Making a pool of a size that is not negative does not wait for anything; the pool has [max] connections,
    nothing has been dialled. *)
Theorem C93_made : forall max n, (0 <= max)%Z -> create_pool max n = Made (new_pool (Z.to_nat max) n) /\
  length (p_chan (new_pool (Z.to_nat max) n)) = Z.to_nat max /\ NoDup (p_chan (new_pool (Z.to_nat max) n)) /\ p_nets (new_pool (Z.to_nat max) n) = [].
Proof.
  intros max n H. unfold create_pool. replace (max <? 0)%Z with false by (symmetry; apply Z.ltb_ge; lia).
  rewrite (fill_all (Z.to_nat max) 0 (Z.to_nat max) []); try reflexivity. cbn. split; [reflexivity|]. split; [apply seq_length|]. split; [apply seq_NoDup|reflexivity].
Qed.
Print Assumptions C93_made.
(** Every OpenPool up to the size of the pool is served, if the server is: no goroutine needs another one for that. *)
Theorem C93_serves_partial : forall max n k, (0 <= max)%Z -> k <= Z.to_nat max -> exists s0 l s,
  create_pool max (S n) = Made s0 /\ all_runs flawless s0 l = true /\ pruns s0 l = Some s /\ length (p_out s) = k /\ p_pcs s = repeat Idle (S n) /\
  (forall a, In a l -> In a (open1)).
Proof.
  intros max n k H Hk. exists (new_pool (Z.to_nat max) (S n)). destruct (take_all (Z.to_nat max) n k Hk) as (s & R & (E1 & E2 & E3 & E4 & E5 & E6 & E7) & A).
  exists (opens k), s. split; [now apply C93_made|]. split; [exact A|]. split; [exact R|]. split; [exact E6|]. split; [exact E4|].
  clear. induction k as [|k IH]; cbn [opens]; [intros a []|]. intros a Ha. apply in_app_or in Ha as [Ha|Ha]; auto.
Qed.
Print Assumptions C93_serves_partial.
(** A negative size makes the constructor panic instead of returning its error. *)
Theorem C93_refuted : forall max n, create_pool max n = MadePanics <-> (max < 0)%Z.
Proof.
  intros max n. split; [|intros H; unfold create_pool; now replace (max <? 0)%Z with true by (symmetry; apply Z.ltb_lt; lia)].
  intros E. destruct (Z.lt_ge_cases max 0) as [L|L]; [exact L|]. destruct (C93_made max n L) as [M _]. congruence.
Qed.
Print Assumptions C93_refuted.

(** Size 0 *)
Definition bare (c : pc) : Prop := c = Idle \/ c = OWait \/ c = ORecv \/ c = OFail \/ c = PWait \/ c = PLoop [] \/ (exists ok, c = PRet ok).
Definition holder (c : pc) : bool := match c with Idle | OWait | PWait => false | _ => true end.
Record empty (s : pool) : Prop := {
  e_max : p_max s = 0; e_chan : p_chan s = []; e_refs : p_refs s = []; e_handed : p_handed s = [];
  e_pcs : forall t c, nth_error (p_pcs s) t = Some c -> bare c; e_log : forall t o, ~ In (Got t o) (p_log s);
  e_lock : forall t c, nth_error (p_pcs s) t = Some c -> holder c = true -> p_lock s = Some t }.
Lemma empty_step : forall s a s', empty s -> pstep s a = Some s' -> empty s'.
Proof.
  intros s a s' [E1 E2 E3 E4 E5 E6 E7] T.
  assert (X : forall t c c', nth_error (p_pcs s) t = Some c -> bare c' -> forall t' c2, nth_error (upd t c' (p_pcs s)) t' = Some c2 -> bare c2).
  { intros t c c' E B t' c2 E'. apply pc_upd in E' as [(-> & <-)|(_ & E')]; eauto. }
  assert (Y : forall t c c', nth_error (p_pcs s) t = Some c -> (holder c' = true -> holder c = true) ->
     forall t' c2, nth_error (upd t c' (p_pcs s)) t' = Some c2 -> holder c2 = true -> p_lock s = Some t').
  { intros t c c' E B t' c2 E' HC. apply pc_upd in E' as [(-> & <-)|(N & E')]; [|eauto]. eapply E7; [exact E|auto]. }
  assert (Free : forall t c, nth_error (p_pcs s) t = Some c -> holder c = true -> forall t' c2, nth_error (upd t Idle (p_pcs s)) t' = Some c2 -> holder c2 = true -> None = Some t').
  { intros t c E HC t' c2 E' H2. apply pc_upd in E' as [(-> & <-)|(N & E')]; [discriminate H2|]. pose proof (E7 _ _ E HC). pose proof (E7 _ _ E' H2). congruence. }
  destruct a as [t|t|t|t dead r|t|t|t o m es|t|t r]; cbn [pstep] in T.
  - destruct (nth_error (p_pcs s) t) as [[]|] eqn:E; try discriminate. injection T as <-. constructor; cbn; auto.
    + eapply X; [exact E|]. unfold bare. auto.
    + eapply Y; [exact E|]. discriminate.
  - destruct (nth_error (p_pcs s) t) as [[]|] eqn:E; try discriminate; destruct (p_lock s) eqn:L; try discriminate; injection T as <-; constructor; cbn; auto.
    + eapply X; [exact E|]. unfold bare. destruct (p_closed s); auto.
    + intros t' c2 E' H2. apply pc_upd in E' as [(-> & K)|(N & E')]; [reflexivity|]. pose proof (E7 _ _ E' H2). congruence.
    + eapply X; [exact E|]. rewrite E3. unfold bare. auto 10.
    + intros t' c2 E' H2. apply pc_upd in E' as [(-> & K)|(N & E')]; [reflexivity|]. pose proof (E7 _ _ E' H2). congruence.
  - rewrite E2 in T. destruct (nth_error (p_pcs s) t) as [[]|]; discriminate.
  - destruct (nth_error (p_pcs s) t) as [c|] eqn:E; [|discriminate]. pose proof (E5 _ _ E) as B. destruct B as [->|[->|[->|[->|[->|[->|(ok & ->)]]]]]]; discriminate.
  - rewrite E1, E2 in T. discriminate.
  - destruct (nth_error (p_pcs s) t) as [c|] eqn:E; [|discriminate]. pose proof (E5 _ _ E) as B.
    destruct B as [->|[->|[->|[->|[->|[->|(ok & ->)]]]]]]; try discriminate; injection T as <-; constructor; cbn; auto.
    + eapply X; [exact E|]. now left.
    + intros t' o H. apply in_app_or in H as [H|[H|[]]]; [eapply E6; eauto|discriminate].
    + eapply Free; [exact E|reflexivity].
    + eapply X; [exact E|]. now left.
    + intros t' o H. apply in_app_or in H as [H|[H|[]]]; [eapply E6; eauto|discriminate].
    + eapply Free; [exact E|reflexivity].
  - rewrite E4 in T. cbn in T. destruct (nth_error (p_pcs s) t) as [[]|]; try discriminate; destruct (nth_error (p_heap s) o); discriminate.
  - destruct (nth_error (p_pcs s) t) as [[]|] eqn:E; try discriminate. injection T as <-. constructor; cbn; auto.
    + eapply X; [exact E|]. unfold bare. auto 10.
    + eapply Y; [exact E|]. discriminate.
  - destruct (nth_error (p_pcs s) t) as [c|] eqn:E; [|discriminate]. pose proof (E5 _ _ E) as B.
    destruct B as [->|[->|[->|[->|[->|[->|(ok & ->)]]]]]]; try discriminate; injection T as <-; constructor; cbn; auto.
    + eapply X; [exact E|]. unfold bare. right. right. right. right. right. right. eauto.
    + eapply Y; [exact E|]. auto.
Qed.
Lemma empty_runs : forall l s s', empty s -> pruns s l = Some s' -> empty s'.
Proof.
  induction l as [|a l IH]; intros s s' E R; cbn [pruns] in R; [now injection R as <-|]. destruct (pstep s a) as [s1|] eqn:T; [|discriminate]. eapply IH; [|exact R]. eapply empty_step; eauto.
Qed.
Lemma empty_new : forall n, empty (new_pool 0 n).
Proof.
  intros n. constructor; cbn; auto; try (intros t c E; apply nth_error_In, repeat_spec in E; subst c).
  - now left.
  - discriminate.
Qed.
(** A pool of size 0 is made without complaint, but OpenPool never returns a connection; and from the moment
    an OpenPool on the open pool has taken the lock nothing returns any more: neither this nor any other
    OpenPool nor the pool's Close. *)
Theorem C93_refuted_empty : forall n s0 l s, create_pool 0 n = Made s0 -> pruns s0 l = Some s ->
  (forall t o, ~ In (Got t o) (p_log s)) /\
  (forall t, nth_error (p_pcs s) t = Some ORecv -> forall l' s', pruns s l' = Some s' -> p_log s' = p_log s /\ nth_error (p_pcs s') t = Some ORecv).
Proof.
  intros n s0 l s M R. destruct (C93_made 0 n ltac:(lia)) as [M' _]. rewrite M' in M. injection M as <-.
  pose proof (empty_runs _ _ _ (empty_new n) R) as E. split; [exact (e_log _ E)|]. clear R M'.
  intros t Ht l'. revert s E Ht. induction l' as [|a l' IH]; intros s E Ht s' R; cbn [pruns] in R; [injection R as <-; split; [reflexivity|exact Ht]|].
  destruct (pstep s a) as [s1|] eqn:T; [|discriminate].
  assert (K : p_log s1 = p_log s /\ nth_error (p_pcs s1) t = Some ORecv).
  { pose proof (e_lock _ E _ _ Ht eq_refl) as L. destruct a as [u|u|u|u dead r|u|u|u o m es|u|u r]; cbn [pstep] in T.
    - destruct (nth_error (p_pcs s) u) as [[]|] eqn:Eu; try discriminate. injection T as <-. cbn. split; [reflexivity|]. rewrite nth_upd_other; [exact Ht|]. intros ->. congruence.
    - rewrite L in T. destruct (nth_error (p_pcs s) u) as [[]|]; discriminate.
    - rewrite (e_chan _ E) in T. destruct (nth_error (p_pcs s) u) as [[]|]; discriminate.
    - destruct (nth_error (p_pcs s) u) as [c|] eqn:Eu; [|discriminate]. pose proof (e_pcs _ E _ _ Eu) as B. destruct B as [->|[->|[->|[->|[->|[->|(ok & ->)]]]]]]; discriminate.
    - rewrite (e_max _ E), (e_chan _ E) in T. discriminate.
    - destruct (nth_error (p_pcs s) u) as [c|] eqn:Eu; [|discriminate]. destruct (holder c) eqn:HC; [|destruct c; discriminate].
      pose proof (e_lock _ E _ _ Eu HC). replace u with t in * by congruence. rewrite Ht in Eu. injection Eu as <-. discriminate T.
    - rewrite (e_handed _ E) in T. cbn in T. destruct (nth_error (p_pcs s) u) as [[]|]; try discriminate; destruct (nth_error (p_heap s) o); discriminate.
    - destruct (nth_error (p_pcs s) u) as [[]|] eqn:Eu; try discriminate. injection T as <-. cbn. split; [reflexivity|]. rewrite nth_upd_other; [exact Ht|]. intros ->. congruence.
    - destruct (nth_error (p_pcs s) u) as [c|] eqn:Eu; [|discriminate]. destruct (holder c) eqn:HC; [|destruct c; discriminate].
      pose proof (e_lock _ E _ _ Eu HC). replace u with t in * by congruence. rewrite Ht in Eu. injection Eu as <-. discriminate T. }
  destruct K as [K1 K2]. destruct (IH s1 (empty_step _ _ _ E T) K2 s' R) as [J1 J2]. split; [congruence|exact J2].
Qed.
Print Assumptions C93_refuted_empty.
Definition made_then (max : Z) (n : nat) (l : list action) : option pool := match create_pool max n with Made s => pruns s l | _ => None end.
Example C93_example :
  create_pool (-1) 2 = MadePanics /\
  option_map p_pcs (made_then 0 2 [AOpen 0; ALock 0; APool 1]) = Some [ORecv; PWait] /\
  option_map p_chan (made_then 2 1 []) = Some [0; 1] /\ option_map p_heap (made_then 2 1 []) = Some [blank; blank] /\
  option_map p_log (made_then 2 1 (open1 ++ open1)) = Some [Got 0 0; Got 0 1] /\ option_map p_chan (made_then 2 1 (open1 ++ open1)) = Some [].
Proof. split; [vm_compute; reflexivity|]. split; [vm_compute; reflexivity|]. split; [vm_compute; reflexivity|]. split; [vm_compute; reflexivity|]. split; vm_compute; reflexivity. Qed.
