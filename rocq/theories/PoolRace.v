(** Memory accesses of goroutines that share a pool (driver.go:86-195): the pool machine of
    Pool.v with the trace of what each goroutine does to shared memory and of what orders
    goroutines, and the happens-before relation of the Go memory model on it.

    Shared memory: the fields connRefs and closed of the pool, and each boltConn (one
    location for all its fields and what they own: its statement, transaction and version
    slice).  connStr, maxConns and the channel variable are never written after
    createDriverPool, whose own accesses happen before every step.  The methods of a
    net.Conn may be called from several goroutines at once (package net), so network
    connections are not locations. *)
From Coq Require Import List Bool Arith Lia.
From Verif Require Import Session SessionGen Pool PoolInv PoolMore.
Import ListNotations.

Inductive loc := LRefs | LClosed | LObj (o : nat).
(** Who accesses: OpenPool (with what initialize does), a call on a connection, the writing of
    a new boltConn in reclaim, the pool's Close. *)
Inductive kind := KOpen | KCall | KNew | KShut.
(** [Acq], [Rel]: refLock.  [Send], [Recv]: the channel.  [Acc l w k]: an access, a write or
    a read.  [Ret o]: OpenPool returns [o] (the deferred Unlock comes next).  [Out k], [Get k]:
    the callers' own synchronisation, what goes before [Out k] happens before what follows
    [Get k]. *)
Inductive lab := Acq | Rel | Send | Recv | Acc (l : loc) (w : bool) (k : kind) | Ret (o : nat) | Out (k : nat) | Get (k : nat).
Definition ev : Type := nat * lab.

Definition is_send (e : ev) : bool := match snd e with Send => true | _ => false end.
Definition is_recv (e : ev) : bool := match snd e with Recv => true | _ => false end.
Definition sends (T : list ev) : nat := length (filter is_send T).
Definition recvs (T : list ev) : nat := length (filter is_recv T).

(** ** Happens before
    Within a goroutine; an Unlock before later Locks; a send before the receive of what was
    sent; a receive before the completion of the send that needs its room; the callers' own.
    createDriverPool has sent [max] connections before the trace begins. *)
Inductive hb (max : nat) (T : list ev) : nat -> nat -> Prop :=
| hb_po i j t a b : i < j -> nth_error T i = Some (t, a) -> nth_error T j = Some (t, b) -> hb max T i j
| hb_lock i j t u : i < j -> nth_error T i = Some (t, Rel) -> nth_error T j = Some (u, Acq) -> hb max T i j
| hb_chan i j t u : i < j -> nth_error T i = Some (t, Send) -> nth_error T j = Some (u, Recv) ->
    max + sends (firstn i T) = recvs (firstn j T) -> hb max T i j
| hb_room i j t u : i < j -> nth_error T i = Some (t, Recv) -> nth_error T j = Some (u, Send) ->
    recvs (firstn i T) = sends (firstn j T) -> hb max T i j
| hb_own i j t u k : i < j -> nth_error T i = Some (t, Out k) -> nth_error T j = Some (u, Get k) -> hb max T i j
| hb_trans i j k : hb max T i j -> hb max T j k -> hb max T i k.

(** ** What each step does *)
Definition actor (a : action) : nat :=
  match a with AOpen t | ALock t | ARecv t | AInit t _ _ | ASend t | ARet t | ACall t _ _ _ | APool t | AShut t _ => t end.
(** the connections a step creates *)
Definition news (s s' : pool) : list lab :=
  map (fun o => Acc (LObj o) true KNew) (seq (length (p_heap s)) (length (p_heap s') - length (p_heap s))).
(** [cur t]: the connection the call of goroutine [t] is about.  After a send (driver.go:191)
    the call goes on, with the boltConn it was called on. *)
Definition labels (s : pool) (cur : nat -> option nat) (a : action) (s' : pool) : list lab :=
  match a with
  | AOpen _ | APool _ => []
  | ALock t =>
      match nth_error (p_pcs s) t with
      | Some PWait => [Acq; Acc LRefs false KShut]                  (* driver.go:159-161 *)
      | _ => [Acq; Acc LClosed false KOpen]                         (* 127-130 *)
      end
  | ARecv _ => [Recv]                                               (* 131 *)
  | AInit t _ r =>
      match nth_error (p_pcs s) t with
      | Some (OHave o) =>
          Acc (LObj o) true KOpen ::                                (* 132-135 *)
          (if length (p_refs s) <? length (p_refs s') then [Acc LRefs true KOpen] else []) ++   (* 136 *)
          news s s'                                                 (* 176-190, from initialize *)
      | _ => []
      end
  | ASend t =>
      Send ::                                                       (* 191 *)
      match cur t, nth_error (p_pcs s) t with
      | Some o, Some (OPut _) => [Acc (LObj o) true KOpen]
      | Some o, _ => [Acc (LObj o) true KCall]
      | None, _ => []
      end
  | ARet t =>
      match nth_error (p_pcs s) t with
      | Some (OGive o) => [Ret o; Rel]                              (* 138, 128 *)
      | _ => [Rel]
      end
  | ACall _ o _ _ => Acc (LObj o) true KCall :: news s s'
  | AShut t _ =>
      match nth_error (p_pcs s) t with
      | Some (PLoop (o :: _)) => [Acc (LObj o) true KShut]          (* 163-164 *)
      | _ => []
      end ++
      match nth_error (p_pcs s') t with
      | Some (PRet _) => [Acc LClosed true KShut]                   (* 166, 171 *)
      | _ => []
      end
  end.

Definition cur_after (s : pool) (cur : nat -> option nat) (a : action) : nat -> option nat :=
  match a with
  | AInit t _ _ =>
      match nth_error (p_pcs s) t with
      | Some (OHave o) => fun u => if u =? t then Some o else cur u
      | _ => cur
      end
  | ACall t o _ _ => fun u => if u =? t then Some o else cur u
  | _ => cur
  end.

(** A step of the pool machine, or of the callers among themselves (outside of calls). *)
Inductive xact := Do (a : action) | XOut (t k : nat) | XGet (t k : nat).
Record mach := Mach { m_s : pool; m_cur : nat -> option nat; m_t : list ev }.
Definition idle (s : pool) (t : nat) : bool := match nth_error (p_pcs s) t with Some Idle => true | _ => false end.
Definition mstep (m : mach) (x : xact) : option mach :=
  match x with
  | Do a =>
      match pstep (m_s m) a with
      | Some s' => Some (Mach s' (cur_after (m_s m) (m_cur m) a) (m_t m ++ map (pair (actor a)) (labels (m_s m) (m_cur m) a s')))
      | None => None
      end
  | XOut t k => if idle (m_s m) t then Some (Mach (m_s m) (m_cur m) (m_t m ++ [(t, Out k)])) else None
  | XGet t k => if idle (m_s m) t then Some (Mach (m_s m) (m_cur m) (m_t m ++ [(t, Get k)])) else None
  end.
Fixpoint mruns (m : mach) (l : list xact) : option mach :=
  match l with
  | [] => Some m
  | x :: l => match mstep m x with Some m' => mruns m' l | None => None end
  end.
Definition mach0 (max n : nat) : mach := Mach (new_pool max n) (fun _ => None) [].

(** ** A race: two accesses to one location by different goroutines, not both reads, neither
    of which happens before the other *)
Record race (max : nat) (T : list ev) (i j : nat) (k k' : kind) : Prop := {
  rc_lt : i < j;
  rc_acc : exists t u l w w', nth_error T i = Some (t, Acc l w k) /\ nth_error T j = Some (u, Acc l w' k') /\ t <> u /\ w || w' = true;
  rc_hb : ~ hb max T i j }.

(** Who calls a method of a connection has it from OpenPool, directly or from another
    goroutine in a way that orders the two. *)
Definition received (max : nat) (T : list ev) : Prop :=
  forall n t o w, nth_error T n = Some (t, Acc (LObj o) w KCall) -> exists j u, nth_error T j = Some (u, Ret o) /\ hb max T j n.

(** ** An abstract machine with one label at a time *)
Record view := View { v_holder : option nat; v_chan : list nat; v_puts : nat -> list nat; v_recvd : list nat; v_handed : list nat; v_bound : nat }.
Definition setp (t : nat) (l : list nat) (f : nat -> list nat) : nat -> list nat := fun u => if u =? t then l else f u.
Inductive mic (v : view) : ev -> view -> Prop :=
| mi_acq t : v_holder v = None -> mic v (t, Acq) (View (Some t) (v_chan v) (v_puts v) (v_recvd v) (v_handed v) (v_bound v))
| mi_rel t : v_holder v = Some t -> mic v (t, Rel) (View None (v_chan v) (v_puts v) (v_recvd v) (v_handed v) (v_bound v))
| mi_recv t o q : v_holder v = Some t -> v_chan v = o :: q ->
    mic v (t, Recv) (View (v_holder v) q (v_puts v) (o :: v_recvd v) (v_handed v) (v_bound v))
| mi_send t o os p : v_puts v t = o :: os -> (forall u, p u = setp t os (v_puts v) u) ->
    mic v (t, Send) (View (v_holder v) (v_chan v ++ [o]) p (v_recvd v) (v_handed v) (v_bound v))
| mi_open t l w : v_holder v = Some t -> (forall o, l = LObj o -> In o (v_recvd v) /\ ~ In o (v_handed v) /\ o < v_bound v) ->
    mic v (t, Acc l w KOpen) v
| mi_shut t l w : v_holder v = Some t -> (forall o, l = LObj o -> In o (v_recvd v) /\ o < v_bound v) -> mic v (t, Acc l w KShut) v
| mi_call t o w : In o (v_handed v) -> o < v_bound v -> mic v (t, Acc (LObj o) w KCall) v
| mi_new t o w p : o = v_bound v -> (forall u, p u = setp t (v_puts v t ++ [o]) (v_puts v) u) ->
    mic v (t, Acc (LObj o) w KNew) (View (v_holder v) (v_chan v) p (v_recvd v) (v_handed v) (S o))
| mi_ret t o : v_holder v = Some t -> In o (v_recvd v) -> mic v (t, Ret o) (View (v_holder v) (v_chan v) (v_puts v) (v_recvd v) (o :: v_handed v) (v_bound v))
| mi_out t k : mic v (t, Out k) v
| mi_get t k : mic v (t, Get k) v.
Inductive mics (v0 : view) : list ev -> view -> Prop :=
| ms_nil : mics v0 [] v0
| ms_snoc T v e v' : mics v0 T v -> mic v e v' -> mics v0 (T ++ [e]) v'.

Lemma firstn_snoc A (l : list A) n e : nth_error l n = Some e -> firstn (S n) l = firstn n l ++ [e].
Proof.
  revert n. induction l as [|x l IH]; intros [|n] E; try discriminate; cbn in *; [now injection E as ->|].
  now rewrite (IH n E).
Qed.

Section RF.
Variable max : nat.
Variable TT : list ev.
Notation HB := (hb max TT).
Notation at_ i t a := (nth_error TT i = Some (t, a)).
Definition hbe i j := i = j \/ HB i j.

(** what goroutine [t], or whoever takes the lock next, knows after [n] events *)
Definition kn (n t i : nat) : Prop := exists j a, j < n /\ at_ j t a /\ hbe i j.
Definition knl (n : nat) (h : option nat) (i : nat) : Prop :=
  match h with Some t => kn n t i | None => exists j u, j < n /\ at_ j u Rel /\ hbe i j end.

Lemma kn_hb n t i a : kn n t i -> at_ n t a -> HB i n.
Proof.
  intros (j & b & Lj & Ej & [->|Hj]) En; [eapply hb_po; eassumption|].
  eapply hb_trans; [exact Hj|]. eapply hb_po; eassumption.
Qed.
Lemma kn_self n t a : at_ n t a -> kn (S n) t n.
Proof. intros E. exists n, a. split; [lia|]. split; [exact E|now left]. Qed.
Lemma kn_mono n t i : kn n t i -> kn (S n) t i.
Proof. intros (j & a & L & E & H). exists j, a. split; [lia|auto]. Qed.
Lemma knl_mono n h i : knl n h i -> knl (S n) h i.
Proof. destruct h; [apply kn_mono|]. intros (j & u & L & E & H). exists j, u. split; [lia|auto]. Qed.

Definition ob_kind (k : kind) : bool := match k with KOpen | KNew => true | _ => false end.

(** [n] events have happened, the state is [v]. *)
Record RI (n : nat) (v : view) : Prop := {
  r_count : recvs (firstn n TT) + length (v_chan v) = max + sends (firstn n TT);
  r_bound : forall i t o w k, i < n -> at_ i t (Acc (LObj o) w k) -> o < v_bound v;
  r_obj : forall i t l w k, i < n -> at_ i t (Acc l w k) -> match l with LObj _ => True | _ => k = KOpen \/ k = KShut end;
  r_lock : forall i t l w k, i < n -> at_ i t (Acc l w k) -> k = KOpen \/ k = KShut -> knl n (v_holder v) i;
  r_puts : forall i t o w u, i < n -> at_ i t (Acc (LObj o) w KNew) -> In o (v_puts v u) -> kn n u i;
  r_chan : forall i t o w p, i < n -> at_ i t (Acc (LObj o) w KNew) -> nth_error (v_chan v) p = Some o ->
    exists j u, j < n /\ at_ j u Send /\ max + sends (firstn j TT) = recvs (firstn n TT) + p /\ hbe i j;
  r_recvd : forall i t o w, i < n -> at_ i t (Acc (LObj o) w KNew) -> In o (v_recvd v) -> knl n (v_holder v) i;
  r_got : forall i j t u o w k, i < n -> j < n -> at_ j u (Ret o) -> at_ i t (Acc (LObj o) w k) -> ob_kind k = true -> HB i j;
  r_ret : forall j u o, j < n -> at_ j u (Ret o) -> In o (v_handed v);
  r_call : forall i t o w, i < n -> at_ i t (Acc (LObj o) w KCall) -> In o (v_handed v);
  r_lt : forall o, In o (v_chan v) \/ In o (v_recvd v) \/ In o (v_handed v) \/ (exists u, In o (v_puts v u)) -> o < v_bound v;
  r_ok : forall i j t u l w w' k k', i < j -> j < n -> at_ i t (Acc l w k) -> at_ j u (Acc l w' k') ->
    HB i j \/ (k = KCall /\ k' = KCall) \/ (k = KCall /\ k' = KShut) \/ (k = KShut /\ k' = KCall) }.

Hypothesis RC : received max TT.

Lemma sends_S n t a : at_ n t a -> sends (firstn (S n) TT) = sends (firstn n TT) + (if is_send (t, a) then 1 else 0).
Proof. intros E. rewrite (firstn_snoc _ _ _ _ E). unfold sends. rewrite filter_app, app_length. cbn [filter]. destruct (is_send (t, a)); cbn; lia. Qed.
Lemma recvs_S n t a : at_ n t a -> recvs (firstn (S n) TT) = recvs (firstn n TT) + (if is_recv (t, a) then 1 else 0).
Proof. intros E. rewrite (firstn_snoc _ _ _ _ E). unfold recvs. rewrite filter_app, app_length. cbn [filter]. destruct (is_recv (t, a)); cbn; lia. Qed.


Lemma acq_kn n t i : knl n None i -> at_ n t Acq -> kn (S n) t i.
Proof.
  intros (j & u & L & E & H) En. assert (J : HB j n) by (eapply hb_lock; eassumption).
  exists n, Acq. split; [lia|]. split; [exact En|]. right. destruct H as [->|H]; [exact J|]. eapply hb_trans; eassumption.
Qed.
Lemma rel_kn n t i : kn n t i -> at_ n t Rel -> knl (S n) None i.
Proof. intros K En. exists n, t. split; [lia|]. split; [exact En|]. right. eapply kn_hb; eassumption. Qed.
Lemma hb_lt i j : HB i j -> i < j.
Proof. induction 1; lia. Qed.

Lemma RI_step n v e v' : RI n v -> nth_error TT n = Some e -> mic v e v' -> RI (S n) v'.
Proof.
  intros [Q1 Q2 Q3 Q4 Q5 Q6 Q7 Q8 Q9 Q10 Q11 Q12] En M.
  assert (X : forall i t a, i < S n -> at_ i t a -> i < n /\ at_ i t a \/ i = n /\ e = (t, a)).
  { intros i t a L E. assert (i < n \/ i = n) as [?| ->] by lia; [now left|right]. split; [reflexivity|congruence]. }
  Ltac new X := repeat match goal with
    | L : ?i < S ?n, E : nth_error _ ?i = Some (_, Acc _ _ _) |- _ => destruct (X _ _ _ L E) as [[? ?]|[? ?]]; clear L E
    | L : ?i < S ?n, E : nth_error _ ?i = Some (_, Ret _) |- _ => destruct (X _ _ _ L E) as [[? ?]|[? ?]]; clear L E end;
    try discriminate; repeat match goal with H : (_, _) = (_, _) |- _ => injection H; clear H; intros; subst end.
  (* accesses to the pool's fields *)
  assert (OBJ : forall i t l w k, i < S n -> at_ i t (Acc l w k) -> match l with LObj _ => True | _ => k = KOpen \/ k = KShut end).
  { intros i t l w k L E. destruct (X _ _ _ L E) as [[? ?]|[? ->]]; [eapply Q3; eauto|]. destruct l; trivial; inversion M; subst; auto. }
  (* what is in the channel, as long as nothing is received *)
  assert (CH : forall i t o w p, i < S n -> at_ i t (Acc (LObj o) w KNew) -> nth_error (v_chan v) p = Some o ->
    exists j u, j < S n /\ at_ j u Send /\ max + sends (firstn j TT) = recvs (firstn n TT) + p /\ hbe i j).
  { intros i t o w p L E Ep. destruct (X _ _ _ L E) as [[L' _]|[? ->]].
    - destruct (Q6 i t o w p L' E Ep) as (j & u & ? & ? & ? & ?). exists j, u. repeat split; auto.
    - exfalso. inversion M; subst. apply nth_error_In in Ep. assert (v_bound v < v_bound v); [apply Q11; auto|lia]. }
  (* accesses under the lock, and the objects received under it *)
  assert (LK : forall t i u l w k, v_holder v = Some t -> i < n -> at_ i u (Acc l w k) -> k = KOpen \/ k = KShut -> kn n t i).
  { intros t i u l w k Hh L E Hk. pose proof (Q4 i u l w k L E Hk) as K. rewrite Hh in K. exact K. }
  assert (RV : forall t i u o w, v_holder v = Some t -> i < n -> at_ i u (Acc (LObj o) w KNew) -> In o (v_recvd v) -> kn n t i).
  { intros t i u o w Hh L E Hk. pose proof (Q7 i u o w L E Hk) as K. rewrite Hh in K. exact K. }
  destruct M as [t Hh|t Hh|t o q Hh Hc|t o os p Hp Ep|t l w Hh Ho|t l w Hh Ho|t o w Ho Hb|t o w p -> Ep|t o Hh Ho|t k|t k];
    (split; cbn [v_holder v_chan v_puts v_recvd v_handed v_bound]).
  all: rewrite ?(sends_S _ _ _ En), ?(recvs_S _ _ _ En); cbn [is_send is_recv snd]; rewrite ?Nat.add_0_r.
  all: try exact OBJ; try exact CH; try exact Q1.
  all: try solve [intros; new X; eauto using kn_mono, knl_mono].
  - (* Acq *) intros. new X. apply acq_kn; [|exact En]. rewrite <- Hh. eauto.
  - intros. new X. apply acq_kn; [|exact En]. rewrite <- Hh. eauto.
  - (* Rel *) intros. new X. eapply rel_kn; [|exact En]. eauto.
  - intros. new X. eapply rel_kn; [|exact En]. eauto.
  - (* Recv *) rewrite Hc in Q1. cbn in Q1. lia.
  - intros i u o0 w p L E Eq. destruct (CH i u o0 w (S p) L E) as (j & u' & ? & ? & ? & ?); [now rewrite Hc|].
    exists j, u'. repeat split; auto. lia.
  - intros i u o0 w L E [<-|Hin]; new X; [|apply knl_mono; eauto].
    destruct (Q6 i u o w 0) as (j & u' & L' & Ej & Ec & Hj); auto; [now rewrite Hc|].
    rewrite Hh. exists n, Recv. split; [lia|]. split; [exact En|]. right.
    assert (J : HB j n) by (eapply hb_chan; try eassumption; lia).
    destruct Hj as [->|Hj]; [exact J|eapply hb_trans; eassumption].
  - intros o0 Hin. apply Q11. rewrite Hc. cbn in *. tauto.
  - (* Send *) rewrite app_length. cbn. lia.
  - intros i u o0 w u' L E Hin. rewrite Ep in Hin. unfold setp in Hin. new X. apply kn_mono. destruct (Nat.eqb_spec u' t) as [Eu|Nu]; [|eauto].
    eapply Q5; eauto. rewrite Eu, Hp. now right.
  - intros i u o0 w p0 L E Eq. destruct (Nat.lt_ge_cases p0 (length (v_chan v))) as [Lp|Lp].
    + rewrite nth_error_app1 in Eq by exact Lp. eauto.
    + rewrite nth_error_app2 in Eq by exact Lp. destruct (p0 - length (v_chan v)) eqn:Ed; [|destruct n0; discriminate].
      cbn in Eq. injection Eq as <-. new X. exists n, t. split; [lia|]. split; [exact En|]. split; [lia|]. right.
      eapply kn_hb; [|exact En]. eapply Q5; eauto. rewrite Hp. now left.
  - intros o0 [Hin|[Hin|[Hin|[u Hin]]]]; apply Q11; auto.
    + apply in_app_or in Hin. destruct Hin as [?|[<-|[]]]; auto. right; right; right. exists t. rewrite Hp. now left.
    + right; right; right. rewrite Ep in Hin. unfold setp in Hin. destruct (Nat.eqb_spec u t) as [Eu|Nu]; [|eauto]. exists t. rewrite Hp. now right.
  - (* OpenPool's accesses *) intros i u o w0 k L E. new X; eauto. apply Ho. reflexivity.
  - intros i u l0 w0 k L E Hk. new X; [apply knl_mono; eauto|]. rewrite Hh. eapply kn_self; eauto.
  - intros i j u u' o w0 k L L' E E' Hk. new X; eauto. exfalso. destruct (Ho o eq_refl) as (_ & N & _). eauto.
  - intros i j u u' l0 w0 w1 k k' L L' E E'. destruct (X _ _ _ L' E') as [[L2 _]|[-> Ee]]; [eauto|]. injection Ee as <- <- <- <-. left.
    eapply kn_hb; [|exact En]. destruct k; eauto.
    + exfalso. pose proof (Q3 _ _ _ _ _ L E) as O. destruct l as [| |o]; [destruct O; discriminate..|]. destruct (Ho o eq_refl) as (_ & N & _). eauto.
    + pose proof (Q3 _ _ _ _ _ L E) as O. destruct l as [| |o]; [destruct O; discriminate..|]. destruct (Ho o eq_refl) as (R & _). eauto.
  - (* the pool's Close *) intros i u o w0 k L E. new X; eauto. apply Ho. reflexivity.
  - intros i u l0 w0 k L E Hk. new X; [apply knl_mono; eauto|]. rewrite Hh. eapply kn_self; eauto.
  - intros i j u u' o w0 k L L' E E' Hk. new X; eauto. discriminate.
  - intros i j u u' l0 w0 w1 k k' L L' E E'. destruct (X _ _ _ L' E') as [[L2 _]|[-> Ee]]; [eauto|]. injection Ee as <- <- <- <-.
    destruct k; auto; left; (eapply kn_hb; [|exact En]); eauto.
    pose proof (Q3 _ _ _ _ _ L E) as O. destruct l as [| |o]; [destruct O; discriminate..|]. destruct (Ho o eq_refl) as (R & _). eauto.
  - (* a call *) intros i u l0 w0 k L E Hk. new X; [apply knl_mono; eauto|]. destruct Hk; discriminate.
  - intros i j u u' o0 w0 k L L' E E' Hk. new X; eauto. discriminate.
  - intros i j u u' l0 w0 w1 k k' L L' E E'. destruct (X _ _ _ L' E') as [[L2 _]|[-> Ee]]; [eauto|]. injection Ee as <- <- <- <-.
    destruct (RC _ _ _ _ En) as (g & gu & Eg & Hg). pose proof (hb_lt _ _ Hg).
    destruct k; auto; left; eapply hb_trans; try exact Hg; eapply Q8; eauto.
  - (* a new connection *) intros i u o w0 k L E. new X; eauto. apply Nat.lt_lt_succ_r. eauto.
  - intros i u l0 w0 k L E Hk. new X; [apply knl_mono; eauto|]. destruct Hk; discriminate.
  - intros i u o w0 u' L E Hin. rewrite Ep in Hin. unfold setp in Hin. destruct (Nat.eqb_spec u' t) as [Eu|N]; [rewrite Eu; clear Eu|].
    + new X; [|eapply kn_self; eauto]. apply kn_mono. apply in_app_or in Hin. destruct Hin as [Hin|[<-|[]]]; [eauto|].
      exfalso. assert (v_bound v < v_bound v) by eauto. lia.
    + new X; [apply kn_mono; eauto|]. exfalso. assert (v_bound v < v_bound v) by (apply Q11; eauto). lia.
  - intros i u o w0 L E Hin. new X; [apply knl_mono; eauto|]. exfalso. assert (v_bound v < v_bound v) by (apply Q11; eauto). lia.
  - intros i j u u' o w0 k L L' E E' Hk. new X; eauto. exfalso. assert (v_bound v < v_bound v) by (apply Q11; eauto). lia.
  - intros o [Hin|[Hin|[Hin|[u Hin]]]]; try (apply Nat.lt_lt_succ_r; apply Q11; now auto). rewrite Ep in Hin. unfold setp in Hin.
    destruct (Nat.eqb_spec u t) as [Eu|N]; [|apply Nat.lt_lt_succ_r; apply Q11; now eauto].
    apply in_app_or in Hin. destruct Hin as [Hin|[<-|[]]]; [apply Nat.lt_lt_succ_r; apply Q11; now eauto|lia].
  - intros i j u u' l0 w0 w1 k k' L L' E E'. destruct (X _ _ _ L' E') as [[L2 _]|[-> Ee]]; [eauto|]. injection Ee as <- <- <- <-.
    exfalso. assert (v_bound v < v_bound v) by eauto. lia.
  - (* a connection is returned *) intros i j u u' o0 w0 k L L' E E' Hk.
    destruct (X _ _ _ L E') as [[L1 _]|[? ?]]; [|discriminate].
    destruct (X _ _ _ L' E) as [[L2 _]|[-> Ee]]; [eauto|]. injection Ee as <- <-. eapply kn_hb; [|exact En].
    destruct k; try discriminate; eauto.
  - intros. new X; cbn; eauto.
  - intros. new X; cbn; eauto.
  - intros o0 [Hin|[Hin|[[<-|Hin]|Hin]]]; apply Q11; auto.
Qed.
End RF.

Lemma mics_RI max T rest v0 v : received max (T ++ rest) -> mics v0 T v -> RI max (T ++ rest) 0 v0 -> RI max (T ++ rest) (length T) v.
Proof.
  intros RC M R0. remember (T ++ rest) as TT eqn:E. revert rest E. induction M as [|T v e v' M IH Hm]; intros rest E; [exact R0|].
  rewrite app_length, Nat.add_1_r. eapply RI_step; [exact RC| |  |exact Hm].
  - apply (IH ([e] ++ rest)). now rewrite E, <- app_assoc.
  - rewrite E, <- app_assoc, nth_error_app2, Nat.sub_diag; [reflexivity|lia].
Qed.
Lemma mics_trans v0 T v T' v' : mics v0 T v -> mics v T' v' -> mics v0 (T ++ T') v'.
Proof.
  intros M N. induction N as [|T' w e w' N IH Hm]; [now rewrite app_nil_r|]. rewrite app_assoc. eapply ms_snoc; eassumption.
Qed.
Lemma mics_cons v e v1 T v' : mic v e v1 -> mics v1 T v' -> mics v (e :: T) v'.
Proof. intros Hm N. apply (mics_trans v [e] v1); [|exact N]. apply (ms_snoc v [] v e v1); [constructor|exact Hm]. Qed.
Lemma mics_one v e v1 : mic v e v1 -> mics v [e] v1.
Proof. intros. eapply mics_cons; [eassumption|constructor]. Qed.

(** ** The pool machine makes these steps *)
Definition putsof (s : pool) (t : nat) : list nat :=
  match nth_error (p_pcs s) t with Some (OPut os) | Some (CPut os) => os | _ => [] end.
Record Abs (s : pool) (cur : nat -> option nat) (v : view) : Prop := {
  a_holder : v_holder v = p_lock s;
  a_chan : v_chan v = p_chan s;
  a_bound : v_bound v = length (p_heap s);
  a_handed : v_handed v = p_handed s;
  a_puts : forall t, v_puts v t = putsof s t;
  a_refs : forall o, In o (p_refs s) -> In o (v_recvd v);
  a_pcs : forall t c, nth_error (p_pcs s) t = Some c ->
    match c with
    | OHave o | OGive o => In o (v_recvd v)
    | OPut _ => exists o, cur t = Some o /\ In o (v_recvd v) /\ ~ In o (p_handed s) /\ o < length (p_heap s)
    | CPut _ => exists o, cur t = Some o /\ In o (p_handed s) /\ o < length (p_heap s)
    | _ => True
    end }.

Lemma news_mics k : forall v t, exists v',
  mics v (map (pair t) (map (fun o => Acc (LObj o) true KNew) (seq (v_bound v) k))) v' /\
  v_holder v' = v_holder v /\ v_chan v' = v_chan v /\ v_bound v' = v_bound v + k /\ v_handed v' = v_handed v /\
  v_recvd v' = v_recvd v /\ forall u, v_puts v' u = setp t (v_puts v t ++ seq (v_bound v) k) (v_puts v) u.
Proof.
  induction k as [|k IH]; intros v t.
  - exists v. cbn [seq map]. split; [constructor|]. rewrite Nat.add_0_r, app_nil_r. repeat split; auto.
    intros u. unfold setp. destruct (Nat.eqb_spec u t); congruence.
  - destruct (IH v t) as (v1 & M & E1 & E2 & E3 & E4 & E5 & E6).
    exists (View (v_holder v1) (v_chan v1) (setp t (v_puts v1 t ++ [v_bound v1]) (v_puts v1)) (v_recvd v1) (v_handed v1) (S (v_bound v1))).
    cbn [v_holder v_chan v_bound v_handed v_puts v_recvd]. rewrite seq_S, !map_app. split.
    + eapply mics_trans; [exact M|]. apply mics_one. rewrite <- E3. now constructor.
    + repeat split; auto; [lia|]. intros u. unfold setp in *. rewrite !E6, Nat.eqb_refl, E3, <- app_assoc. now destruct (u =? t).
Qed.
Lemma putsof_upd s s' t c c' u : nth_error (p_pcs s) t = Some c -> p_pcs s' = upd t c' (p_pcs s) ->
  putsof s' u = if u =? t then match c' with OPut os | CPut os => os | _ => [] end else putsof s u.
Proof.
  intros E Ep. unfold putsof. rewrite Ep. destruct (Nat.eqb_spec u t) as [->|N].
  - erewrite nth_upd_same by eauto. reflexivity.
  - rewrite nth_upd_other by auto. reflexivity.
Qed.
Definition a_pc (s : pool) (cur : nat -> option nat) (v : view) (t : nat) (c : pc) : Prop :=
  match c with
  | OHave o | OGive o => In o (v_recvd v)
  | OPut _ => exists o, cur t = Some o /\ In o (v_recvd v) /\ ~ In o (p_handed s) /\ o < length (p_heap s)
  | CPut _ => exists o, cur t = Some o /\ In o (p_handed s) /\ o < length (p_heap s)
  | _ => True
  end.
Lemma Abs_upd s cur v s' cur' v' t c c' : InvL s -> Abs s cur v -> nth_error (p_pcs s) t = Some c -> p_pcs s' = upd t c' (p_pcs s) ->
  v_holder v' = p_lock s' -> v_chan v' = p_chan s' -> v_bound v' = length (p_heap s') -> v_handed v' = p_handed s' ->
  length (p_heap s) <= length (p_heap s') -> (forall u, u <> t -> cur' u = cur u) ->
  (forall u, v_puts v' u = if u =? t then match c' with OPut os | CPut os => os | _ => [] end else v_puts v u) ->
  incl (v_recvd v) (v_recvd v') -> (forall o, In o (p_refs s') -> In o (p_refs s) \/ In o (v_recvd v')) ->
  p_handed s' = p_handed s \/ (incl (p_handed s) (p_handed s') /\ locked c = true) ->
  a_pc s' cur' v' t c' -> Abs s' cur' v'.
Proof.
  intros IL [A1 A2 A3 A4 A5 A6 A7] E Ep B1 B2 B3 B4 Lh Hc B5 Hr Hf Hd Ht. split; auto.
  - intros u. rewrite B5, (putsof_upd _ _ _ _ _ _ E Ep), A5. reflexivity.
  - intros o Ho. destruct (Hf o Ho); auto.
  - intros u d Ed. rewrite Ep in Ed. destruct (pc_upd _ _ _ _ _ Ed) as [[-> <-]|[N Ed']]; [exact Ht|].
    specialize (A7 u d Ed'). destruct d; auto.
    + destruct A7 as (o & X1 & X2 & X3 & X4). exists o. rewrite Hc by auto. repeat split; auto; [|lia].
      destruct Hd as [->|[_ Lk]]; auto. exfalso. apply N. eapply lock_unique; eauto.
    + destruct A7 as (o & X1 & X2 & X3). exists o. rewrite Hc by auto. repeat split; auto; [|lia]. destruct Hd as [->|[I _]]; auto.
Qed.
Lemma abs_step s cur v a s' : reach anyhow s -> Abs s cur v -> pstep s a = Some s' ->
  exists v', mics v (map (pair (actor a)) (labels s cur a s')) v' /\ Abs s' (cur_after s cur a) v'.
Proof.
  intros R A0 T. pose proof A0 as [A1 A2 A3 A4 A5 A6 A7]. pose proof (InvB_reach _ _ R) as IB. pose proof (InvL_reach _ _ R) as IL.
  destruct v as [vh vc vp vr vd vb]. cbn [v_holder v_chan v_bound v_handed v_puts v_recvd] in *. subst vh vc vb vd.
  assert (HK : forall u o, nth_error (p_pcs s) u = Some (OHave o) -> ~ In o (p_handed s) /\ o < length (p_heap s)).
  { intros u o Eu. assert (K s o > 0) by (unfold K, kept; rewrite cn_app; enough (cn o (flat_map mid (p_pcs s)) > 0) by lia;
      apply cn_in, in_flat_map; exists (OHave o); split; [eapply nth_error_In; eauto|now left]).
    pose proof (b_one _ IB o) as O1. pose proof (b_in _ IB o) as O2. split; [|lia]. intros Hin. apply cn_in in Hin. unfold PoolInv.H in O1. lia. }
  assert (HH : forall o, In o (p_handed s) -> o < length (p_heap s)).
  { intros o Hin. apply (b_in _ IB). apply cn_in in Hin. unfold PoolInv.H. lia. }
  assert (HR : forall o, In o (p_refs s) -> o < length (p_heap s)).
  { intros o Hin. apply (b_in _ IB). pose proof (b_refs _ IB o Hin). lia. }
  assert (FAIL : forall t o k os s', nth_error (p_pcs s) t = Some (OHave o) -> os = seq (length (p_heap s)) k ->
    p_refs s' = p_refs s -> length (p_heap s') = length (p_heap s) + k -> p_pcs s' = upd t (OPut os) (p_pcs s) ->
    p_lock s' = p_lock s -> p_chan s' = p_chan s -> p_handed s' = p_handed s ->
    exists v', mics (View (p_lock s) (p_chan s) vp vr (p_handed s) (length (p_heap s)))
      ((t, Acc (LObj o) true KOpen) :: map (pair t) ((if length (p_refs s) <? length (p_refs s') then [Acc LRefs true KOpen] else []) ++ news s s')) v' /\
    Abs s' (fun u => if u =? t then Some o else cur u) v').
  { clear T s'. intros t o k os s' E -> Er Eh Ep El Ec Ed. rewrite Er, Nat.ltb_irrefl. cbn [app]. unfold news. rewrite Eh, (Nat.add_comm (length _)), Nat.add_sub.
    assert (LK : p_lock s = Some t) by (apply (l_lock _ IL _ _ E); reflexivity). destruct (HK _ _ E) as [N1 N2]. pose proof (A7 _ _ E) as At. cbn in At.
    destruct (news_mics k (View (p_lock s) (p_chan s) vp vr (p_handed s) (length (p_heap s))) t) as (v1 & M & E1 & E2 & E3 & E4 & E5 & E6).
    cbn [v_holder v_chan v_bound v_handed v_puts v_recvd] in *.
    exists v1. split.
    - eapply mics_cons; [|exact M]. apply mi_open; [exact LK|]. intros x [= <-]. cbn. auto.
    - eapply (Abs_upd _ _ _ _ _ _ _ _ _ IL A0 E Ep); cbn [v_holder v_chan v_bound v_handed v_puts v_recvd]; try congruence; auto; try lia.
      + intros u Hu. destruct (Nat.eqb_spec u t); congruence.
      + intros u. rewrite E6. unfold setp. destruct (u =? t); [|reflexivity]. rewrite A5. unfold putsof. now rewrite E.
      + intros x Hx. left. congruence.
      + exists o. rewrite Nat.eqb_refl, E5, Ed, Eh. repeat split; auto. lia. }
  apply pstep_inv in T.
  destruct T as [t E|t E|t E L|t E L|t o q E C|t r o b n E Eo En|t d o b E Eo|t d o b E Eo|t d o b e E Eo|t d o b e1 e2 E Eo|t o os E L|t o os E L
     |t o E|t E|t ok E|t o m es b E Eo Hh Hk Hc|t o m es b E Eo Hh Hk Hes Hc Hp|t o m es b E Eo Hh Hk Hes Hc Hp|t r E|t r o os b E Eo Hc|t o os b E Eo Hc|t o os b E Eo Hc|t o os b E Eo Hc];
    cbn [actor labels cur_after]; rewrite ?E; cbn [map app].
  all: try (assert (LK : p_lock s = Some t) by (apply (l_lock _ IL _ _ E); reflexivity)).
  all: pose proof (A7 _ _ E) as At; cbn in At.
  Ltac puts_ A5 E t := intros u; destruct (Nat.eqb_spec u t) as [Eu|Nu]; [subst u; rewrite A5; unfold putsof; now rewrite E|reflexivity].
  Ltac upd_ A0 A5 E t := eapply (Abs_upd _ _ _ _ _ _ _ _ _ ltac:(eassumption) A0 E); [reflexivity|..];
     cbn [v_holder v_chan v_bound v_handed v_puts v_recvd p_lock p_chan p_heap p_handed p_refs p_pcs p_closed p_out p_max p_log
          with_pc with_lock with_closed with_chan with_refs with_heap with_nets with_out with_handed with_event a_pc] in *;
     rewrite ?length_upd, ?app_length; auto using incl_refl; try solve [puts_ A5 E t]; try lia.
  - eexists. split; [constructor|]. upd_ A0 A5 E t.
  - eexists. split; [constructor|]. upd_ A0 A5 E t.
  - eexists. split.
    + eapply mics_cons; [now constructor|]. apply mics_one. apply mi_open; [reflexivity|]. discriminate.
    + destruct (p_closed s); upd_ A0 A5 E t.
  - eexists. split.
    + eapply mics_cons; [now constructor|]. apply mics_one. apply mi_shut; [reflexivity|]. discriminate.
    + upd_ A0 A5 E t.
  - eexists. split.
    + apply mics_one. eapply mi_recv; cbn; eauto.
    + upd_ A0 A5 E t; [apply incl_tl, incl_refl|now left].
  - (* alive *) cbn [p_refs with_pc]. rewrite Nat.ltb_irrefl. unfold news. cbn [p_heap with_pc]. rewrite Nat.sub_diag. cbn [seq map app].
    eexists. split.
    + apply mics_one. apply mi_open; [exact LK|]. intros x [= <-]. cbn. destruct (HK _ _ E). auto.
    + upd_ A0 A5 E t. intros u Hu. destruct (Nat.eqb_spec u t); congruence.
  - (* ready *) cbn [p_refs with_pc with_refs with_heap with_nets]. rewrite app_length. cbn [length].
    replace (length (p_refs s) <? length (p_refs s) + 1) with true by (symmetry; apply Nat.ltb_lt; lia).
    unfold news. cbn [p_heap with_pc with_refs with_heap with_nets]. rewrite length_upd, Nat.sub_diag. cbn [seq map app].
    eexists. split.
    + eapply mics_cons; [apply mi_open; [exact LK|]|apply mics_one; apply mi_open; [exact LK|discriminate]].
      intros x [= <-]. cbn. destruct (HK _ _ E). auto.
    + upd_ A0 A5 E t.
      * intros u Hu. destruct (Nat.eqb_spec u t); congruence.
      * intros x Hx. apply in_app_or in Hx. destruct Hx as [?|[<-|[]]]; auto.
  - (* no dial *) apply (FAIL t o 1 [length (p_heap s)]); auto; cbn; rewrite ?app_length, ?length_upd; auto.
  - (* one put back *) apply (FAIL t o 1 [length (p_heap s)]); auto; cbn; rewrite ?app_length, ?length_upd; auto.
  - (* two *) apply (FAIL t o 2 [length (p_heap s); S (length (p_heap s))]); auto; cbn; rewrite ?app_length, ?length_upd; auto.
  - (* a send of OpenPool *) destruct At as (x & Ex & Hx & Nx & Lx). rewrite Ex. cbn [map].
    eexists. split.
    + eapply mics_cons; [eapply (mi_send _ t o os (setp t os vp)); [cbn; rewrite A5; unfold putsof; now rewrite E|reflexivity]|].
      apply mics_one. apply mi_open; [exact LK|]. intros y [= <-]. cbn. auto.
    + destruct os as [|o2 os]; upd_ A0 A5 E t. exists x. auto.
  - (* a send of a call *) destruct At as (x & Ex & Hx & Lx). rewrite Ex. cbn [map].
    eexists. split.
    + eapply mics_cons; [eapply (mi_send _ t o os (setp t os vp)); [cbn; rewrite A5; unfold putsof; now rewrite E|reflexivity]|].
      apply mics_one. now apply mi_call.
    + destruct os as [|o2 os]; upd_ A0 A5 E t. exists x. auto.
  - (* OpenPool returns *) eexists. split.
    + eapply mics_cons; [eapply (mi_ret _ t o); [exact LK|exact At]|]. apply mics_one. apply mi_rel. exact LK.
    + upd_ A0 A5 E t. right. split; [apply incl_tl, incl_refl|reflexivity].
  - eexists. split; [apply mics_one; apply mi_rel; exact LK|]. upd_ A0 A5 E t.
  - eexists. split; [apply mics_one; apply mi_rel; exact LK|]. upd_ A0 A5 E t.
  - (* calls *) unfold news. cbn [p_heap with_heap with_nets]. rewrite length_upd, Nat.sub_diag. cbn [seq map].
    eexists. split; [apply mics_one; apply mi_call; cbn; auto|].
    split; cbn [v_holder v_chan v_bound v_handed v_puts v_recvd]; auto.
    + cbn. now rewrite length_upd.
    + intros u c Eu. cbn [p_pcs with_heap with_nets] in Eu. specialize (A7 u c Eu). cbn [p_heap p_handed with_heap with_nets]. rewrite length_upd.
      destruct c; auto; destruct (Nat.eqb_spec u t) as [->|N]; auto; rewrite E in Eu; discriminate.
  - rewrite put_back_ids, put_back_heap, length_upd. unfold news. cbn [p_heap with_heap with_nets]. rewrite app_length, map_length, length_upd.
    rewrite Nat.add_comm, Nat.add_sub.
    destruct (news_mics (length es) (View (p_lock s) (p_chan s) vp vr (p_handed s) (length (p_heap s))) t) as (v1 & M & E1 & E2 & E3 & E4 & E5 & E6).
    cbn [v_holder v_chan v_bound v_handed v_puts v_recvd] in *.
    exists v1. split.
    + eapply mics_cons; [|exact M]. apply mi_call; cbn; auto.
    + eapply (Abs_upd _ _ _ _ _ _ _ _ _ IL A0 E); [reflexivity|..]; cbn [v_holder v_chan v_bound v_handed v_puts v_recvd p_lock p_chan p_heap p_handed p_refs with_pc with_out with_heap with_nets]; auto.
      * rewrite app_length, length_upd, map_length. exact E3.
      * rewrite app_length, length_upd. lia.
      * intros u Hu. destruct (Nat.eqb_spec u t); congruence.
      * intros u. rewrite E6. unfold setp. destruct (u =? t); [|reflexivity]. rewrite A5. unfold putsof. now rewrite E.
      * rewrite E5. apply incl_refl.
      * exists o. cbn [p_handed p_heap with_pc with_out with_heap with_nets]. rewrite Nat.eqb_refl, app_length, length_upd. repeat split; auto.
        specialize (HH o Hh). lia.
  - unfold news. cbn [p_heap with_heap with_nets]. rewrite length_upd, Nat.sub_diag. cbn [seq map].
    eexists. split; [apply mics_one; apply mi_call; cbn; auto|].
    split; cbn [v_holder v_chan v_bound v_handed v_puts v_recvd]; auto.
    + cbn. now rewrite length_upd.
    + intros u c Eu. cbn [p_pcs with_heap with_nets with_out] in Eu. specialize (A7 u c Eu). cbn [p_heap p_handed with_heap with_nets with_out]. rewrite length_upd.
      destruct c; auto; destruct (Nat.eqb_spec u t) as [->|N]; auto; rewrite E in Eu; discriminate.
  - (* the pool's Close *) cbn [p_pcs with_pc with_closed]. erewrite nth_upd_same by eauto. cbn [map].
    eexists. split; [apply mics_one; apply mi_shut; [exact LK|discriminate]|]. upd_ A0 A5 E t.
  - cbn [p_pcs with_pc with_heap]. erewrite nth_upd_same by eauto. cbn [map]. assert (Ro : In o (p_refs s)) by (apply (b_loop _ IB _ _ E); now left).
    eexists. split; [apply mics_one; apply mi_shut; [exact LK|]; intros x [= <-]; cbn; auto|]. upd_ A0 A5 E t.
  - cbn [p_pcs with_pc with_heap with_nets]. erewrite nth_upd_same by eauto. cbn [map]. assert (Ro : In o (p_refs s)) by (apply (b_loop _ IB _ _ E); now left).
    eexists. split; [apply mics_one; apply mi_shut; [exact LK|]; intros x [= <-]; cbn; auto|]. upd_ A0 A5 E t.
  - cbn [p_pcs with_pc with_heap with_nets with_closed]. erewrite nth_upd_same by eauto. cbn [map]. assert (Ro : In o (p_refs s)) by (apply (b_loop _ IB _ _ E); now left).
    eexists. split.
    + eapply mics_cons; [apply mi_shut; [exact LK|]|apply mics_one; apply mi_shut; [exact LK|discriminate]]. intros x [= <-]; cbn; auto.
    + upd_ A0 A5 E t.
  - cbn [p_pcs with_pc with_heap with_nets with_closed]. erewrite nth_upd_same by eauto. cbn [map]. assert (Ro : In o (p_refs s)) by (apply (b_loop _ IB _ _ E); now left).
    eexists. split.
    + eapply mics_cons; [apply mi_shut; [exact LK|]|apply mics_one; apply mi_shut; [exact LK|discriminate]]. intros x [= <-]; cbn; auto.
    + upd_ A0 A5 E t.
Qed.

Definition view0 (max : nat) : view := View None (seq 0 max) (fun _ => []) [] [] max.
Lemma abs_new max n : Abs (new_pool max n) (fun _ => None) (view0 max).
Proof.
  split; cbn; auto.
  - now rewrite repeat_length.
  - intros t. unfold putsof. cbn. destruct (nth_error (repeat Idle n) t) eqn:E; [|reflexivity]. apply nth_error_In, repeat_spec in E. now subst.
  - intros t c E. apply nth_error_In, repeat_spec in E. now subst.
Qed.
Lemma RI_new max TT : RI max TT 0 (view0 max).
Proof.
  split; cbn; try (intros; lia).
  - rewrite seq_length. lia.
  - intros o [Hin|[[]|[[]|[u []]]]]. apply in_seq in Hin. lia.
Qed.
Lemma mruns_mics : forall l m m' v, reach anyhow (m_s m) -> Abs (m_s m) (m_cur m) v -> mruns m l = Some m' ->
  exists T v', m_t m' = m_t m ++ T /\ mics v T v'.
Proof.
  induction l as [|x l IH]; intros m m' v R A E; cbn in E; [injection E as <-; exists [], v; split; [now rewrite app_nil_r|constructor]|].
  destruct (mstep m x) as [m1|] eqn:Em; [|discriminate].
  assert (S1 : exists T1 v1, m_t m1 = m_t m ++ T1 /\ mics v T1 v1 /\ Abs (m_s m1) (m_cur m1) v1 /\ reach anyhow (m_s m1)).
  { destruct x as [a|t k|t k]; cbn in Em.
    - destruct (pstep (m_s m) a) as [s'|] eqn:Ep; [|discriminate]. injection Em as <-.
      destruct (abs_step _ _ _ _ _ R A Ep) as (v1 & M & A'). eexists _, v1. split; [reflexivity|]. split; [exact M|]. split; [exact A'|].
      eapply R_step; eauto.
    - destruct (idle (m_s m) t); [|discriminate]. injection Em as <-. exists [(t, Out k)], v. split; [reflexivity|]. split; [apply mics_one; constructor|]. split; [exact A|exact R].
    - destruct (idle (m_s m) t); [|discriminate]. injection Em as <-. exists [(t, Get k)], v. split; [reflexivity|]. split; [apply mics_one; constructor|]. split; [exact A|exact R]. }
  destruct S1 as (T1 & v1 & E1 & M1 & A1 & R1). destruct (IH m1 m' v1 R1 A1 E) as (T2 & v2 & E2 & M2).
  exists (T1 ++ T2), v2. split; [now rewrite E2, E1, app_assoc|]. eapply mics_trans; eassumption.
Qed.

(** ** Races are between calls, or between a call and the pool's Close *)
Lemma races max n l m : mruns (mach0 max n) l = Some m -> received max (m_t m) ->
  forall i j k k', race max (m_t m) i j k k' -> k = KCall /\ k' = KCall \/ k = KCall /\ k' = KShut \/ k = KShut /\ k' = KCall.
Proof.
  intros R RC i j k k' [Lt (t & u & lc & w & w' & Ei & Ej & _) N].
  destruct (mruns_mics l (mach0 max n) m (view0 max) (R_new _ _ _) (abs_new max n) R) as (T & v & Et & M). cbn in Et. rewrite Et in *.
  pose proof (mics_RI max T [] (view0 max) v) as Q. rewrite app_nil_r in Q. specialize (Q RC M (RI_new _ _)).
  assert (Lj : j < length T) by (apply nth_error_Some; congruence).
  destruct (r_ok _ _ _ _ Q _ _ _ _ _ _ _ _ _ Lt Lj Ei Ej) as [H|H]; [contradiction|exact H].
Qed.
