(** driver.go:86-195, the connection pool: a machine whose actions are the atomic steps
    of any number of goroutines calling OpenPool, methods of connections and the pool's
    Close.  What the network and the server do (whether dialling, the handshake and INIT
    succeed, whether a call meets a network error) comes with the action, so it is
    arbitrary.  An action that is not possible in a state (a goroutine waiting for the
    lock, for a connection or for room in the channel) gives [None].

    Simplified: one action for a whole method call on a connection up to the point where it
    hands the connection back (calls on one connection by several goroutines at once are
    not modelled); one action for closing one connection inside the pool's Close; what a
    statement does is in Session.v, here a call only reports what it does to the pool. *)
From Coq Require Import List Bool Arith Lia.
From Verif Require Import Session.
Import ListNotations.

(** conn.go:65-85 boltConn, as the pool sees it: its network connection (conn), connErr,
    closed, and whether poolDriver is set. *)
Record obj := Obj { o_net : option nat; o_err : bool; o_closed : bool; o_pool : bool }.
(** A network connection: whether INIT succeeded on it, whether the driver closed it, whether
    a call on it met a network error or the end of the stream. *)
Record netc := Netc { n_ready : bool; n_shut : bool; n_broken : bool }.

(** conn.go:87-94, 110-115 newPooledBoltConn *)
Definition blank : obj := Obj None false false true.

(** driver.go:176-195 reclaim, the connection that goes back: a new one after a connection
    error, a copy otherwise *)
Definition reclaimed (o : obj) : obj := if o_err o || o_closed o then blank else o.

Definition o_with_net (n : option nat) (o : obj) : obj := Obj n (o_err o) (o_closed o) (o_pool o).
Definition o_with_err (b : bool) (o : obj) : obj := Obj (o_net o) b (o_closed o) (o_pool o).
Definition o_with_closed (o : obj) : obj := Obj (o_net o) (o_err o) true (o_pool o).
Definition o_unpooled (o : obj) : obj := Obj (o_net o) (o_err o) (o_closed o) false.
Definition n_with_shut (n : netc) : netc := Netc (n_ready n) true (n_broken n).
Definition n_with_broken (n : netc) : netc := Netc (n_ready n) (n_shut n) true.

(** What initialize did (conn.go:263-316): succeeded; could not dial; failed later, calling
    Close (which puts the connection back) with connErr set or not at each of these calls.
    There is one such call, or two when consume's acknowledgement of a failure closes the
    connection first (conn.go:404-471). *)
Inductive init_out := IReady | INoDial | IHalf (errs : list bool).
(** What a call on a connection met: nothing, a network error (connErr gets set), the end of
    the stream (connErr is not set, conn.go:330-333). *)
Inductive met := MNothing | MErr | MEof.
(** What closing a connection inside the pool's Close did: nothing failed, closing the open
    statement failed, closing the network connection failed. *)
Inductive shut := ShOk | ShStmt | ShNet.

(** Where a goroutine is.
    [OWait], [PWait]: waiting for refLock in OpenPool, Close.  [ORecv]: driver.go:131.
    [OHave o]: 132-135.  [OPut os]: inside initialize, putting [os] back.  [OGive o]: 138 with
    the lock still held.  [OFail]: returning an error.  [CPut os]: a call on a connection
    putting [os] back (191).  [PLoop os]: 161, connections left to close.  [PRet ok]: the
    pool's Close about to return. *)
Inductive pc :=
| Idle | OWait | ORecv | OHave (o : nat) | OPut (os : list nat) | OGive (o : nat) | OFail
| CPut (os : list nat) | PWait | PLoop (os : list nat) | PRet (ok : bool).

(** What callers see: OpenPool returned a connection, OpenPool returned an error, the pool's
    Close returned. *)
Inductive pevent := Got (t o : nat) | Refused (t : nat) | PoolClosed (t : nat) (ok : bool).

(** driver.go:86-93 boltDriverPool with the goroutines and the heap of connections.  [p_out]:
    handed out and not put back since; [p_handed]: handed out at some time; [p_log]: what
    callers saw, in order (these three are bookkeeping). *)
Record pool := Pool {
  p_max : nat; p_lock : option nat; p_closed : bool; p_chan : list nat; p_refs : list nat;
  p_heap : list obj; p_nets : list netc; p_pcs : list pc;
  p_out : list nat; p_handed : list nat; p_log : list pevent }.

Definition with_pc t c s := Pool (p_max s) (p_lock s) (p_closed s) (p_chan s) (p_refs s) (p_heap s) (p_nets s) (upd t c (p_pcs s)) (p_out s) (p_handed s) (p_log s).
Definition with_lock l s := Pool (p_max s) l (p_closed s) (p_chan s) (p_refs s) (p_heap s) (p_nets s) (p_pcs s) (p_out s) (p_handed s) (p_log s).
Definition with_closed s := Pool (p_max s) (p_lock s) true (p_chan s) (p_refs s) (p_heap s) (p_nets s) (p_pcs s) (p_out s) (p_handed s) (p_log s).
Definition with_chan q s := Pool (p_max s) (p_lock s) (p_closed s) q (p_refs s) (p_heap s) (p_nets s) (p_pcs s) (p_out s) (p_handed s) (p_log s).
Definition with_refs r s := Pool (p_max s) (p_lock s) (p_closed s) (p_chan s) r (p_heap s) (p_nets s) (p_pcs s) (p_out s) (p_handed s) (p_log s).
Definition with_heap h s := Pool (p_max s) (p_lock s) (p_closed s) (p_chan s) (p_refs s) h (p_nets s) (p_pcs s) (p_out s) (p_handed s) (p_log s).
Definition with_nets ns s := Pool (p_max s) (p_lock s) (p_closed s) (p_chan s) (p_refs s) (p_heap s) ns (p_pcs s) (p_out s) (p_handed s) (p_log s).
Definition with_out o s := Pool (p_max s) (p_lock s) (p_closed s) (p_chan s) (p_refs s) (p_heap s) (p_nets s) (p_pcs s) o (p_handed s) (p_log s).
Definition with_handed h s := Pool (p_max s) (p_lock s) (p_closed s) (p_chan s) (p_refs s) (p_heap s) (p_nets s) (p_pcs s) (p_out s) h (p_log s).
Definition with_event e s := Pool (p_max s) (p_lock s) (p_closed s) (p_chan s) (p_refs s) (p_heap s) (p_nets s) (p_pcs s) (p_out s) (p_handed s) (p_log s ++ [e]).

(** driver.go:105-121 createDriverPool, with [n] goroutines *)
Definition new_pool (max n : nat) : pool :=
  Pool max None false (seq 0 max) [] (repeat blank max) [] (repeat Idle n) [] [] [].

(** Steps of a goroutine.
    [AOpen]: calls OpenPool.  [ALock]: takes refLock, in OpenPool (driver.go:127-130) or Close
    (159-161).  [ARecv]: 131.  [AInit t dead r]: 132-137, [dead] is what the read of zero
    bytes says, [r] what initialize does.  [ASend]: one send to the channel (191).
    [ARet]: returns, releasing the lock.  [ACall t o m es]: a method of connection [o] runs: it
    meets [m], and calls Close on the connection once for each of [es] (connErr set at
    that moment or not); for the connection's own Close when nothing fails this is one
    call.  [APool]: calls the pool's Close.  [AShut t r]: one round of its loop. *)
Inductive action :=
| AOpen (t : nat) | ALock (t : nat) | ARecv (t : nat) | AInit (t : nat) (dead : bool) (r : init_out)
| ASend (t : nat) | ARet (t : nat) | ACall (t o : nat) (m : met) (es : list bool)
| APool (t : nat) | AShut (t : nat) (r : shut).

(** Put back [o], once for each of [es]: the copies and the heap with them. *)
Fixpoint put_back (o : obj) (es : list bool) (h : list obj) : list nat * list obj :=
  match es with
  | [] => ([], h)
  | e :: es =>
      let '(os, h') := put_back o es (h ++ [reclaimed (o_with_err e o)]) in
      (length h :: os, h')
  end.

Definition shut_net (n : option nat) (ns : list netc) : list netc :=
  match n with
  | Some i => match nth_error ns i with Some x => upd i (n_with_shut x) ns | None => ns end
  | None => ns
  end.
Definition break_net (n : option nat) (ns : list netc) : list netc :=
  match n with
  | Some i => match nth_error ns i with Some x => upd i (n_with_broken x) ns | None => ns end
  | None => ns
  end.

(** The errors a call can have seen at its calls of Close, given connErr before it. *)
Definition errs_ok (before : bool) (m : met) (es : list bool) : bool :=
  match m with
  | MErr => forallb (fun e => implb before e) es
  | _ => forallb (fun e => eqb e before) es
  end.

Definition remove_nat (o : nat) (l : list nat) : list nat := filter (fun x => negb (x =? o)) l.

Definition pstep (s : pool) (a : action) : option pool :=
  match a with
  | AOpen t =>
      match nth_error (p_pcs s) t with
      | Some Idle => Some (with_pc t OWait s)
      | _ => None
      end
  | APool t =>
      match nth_error (p_pcs s) t with
      | Some Idle => Some (with_pc t PWait s)
      | _ => None
      end
  | ALock t =>
      match nth_error (p_pcs s) t, p_lock s with
      | Some OWait, None => Some (with_lock (Some t) (with_pc t (if p_closed s then OFail else ORecv) s))
      | Some PWait, None => Some (with_lock (Some t) (with_pc t (PLoop (p_refs s)) s))
      | _, _ => None
      end
  | ARecv t =>
      match nth_error (p_pcs s) t, p_chan s with
      | Some ORecv, o :: q => Some (with_chan q (with_pc t (OHave o) s))
      | _, _ => None
      end
  | AInit t dead r =>
      match nth_error (p_pcs s) t with
      | Some (OHave o) =>
          match nth_error (p_heap s) o with
          | None => None
          | Some ob =>
              if match o_net ob with None => true | Some _ => dead end then
                match r with
                | IReady =>
                    Some (with_nets (p_nets s ++ [Netc true false false])
                         (with_heap (upd o (o_with_net (Some (length (p_nets s))) ob) (p_heap s))
                         (with_refs (p_refs s ++ [o]) (with_pc t (OGive o) s))))
                | INoDial =>
                    let ob' := o_with_net None ob in
                    let '(os, h) := put_back ob' [o_err ob] (upd o ob' (p_heap s)) in
                    Some (with_heap h (with_pc t (OPut os) s))
                | IHalf es =>
                    let ob' := o_with_net (Some (length (p_nets s))) ob in
                    let '(os, h) := put_back ob' es (upd o ob' (p_heap s)) in
                    if (length es =? 1) || (length es =? 2)
                    then Some (with_nets (p_nets s ++ [Netc false false false]) (with_heap h (with_pc t (OPut os) s)))
                    else None
                end
              else Some (with_pc t (OGive o) s)
          end
      | _ => None
      end
  | ASend t =>
      if length (p_chan s) <? p_max s then
        match nth_error (p_pcs s) t with
        | Some (OPut (o :: os)) => Some (with_chan (p_chan s ++ [o]) (with_pc t (match os with [] => OFail | _ => OPut os end) s))
        | Some (CPut (o :: os)) => Some (with_chan (p_chan s ++ [o]) (with_pc t (match os with [] => Idle | _ => CPut os end) s))
        | _ => None
        end
      else None
  | ARet t =>
      match nth_error (p_pcs s) t with
      | Some (OGive o) => Some (with_event (Got t o) (with_handed (o :: p_handed s) (with_out (o :: p_out s) (with_lock None (with_pc t Idle s)))))
      | Some OFail => Some (with_event (Refused t) (with_lock None (with_pc t Idle s)))
      | Some (PRet ok) => Some (with_event (PoolClosed t ok) (with_lock None (with_pc t Idle s)))
      | _ => None
      end
  | ACall t o m es =>
      match nth_error (p_pcs s) t, nth_error (p_heap s) o with
      | Some Idle, Some ob =>
          if existsb (Nat.eqb o) (p_handed s) && errs_ok (o_err ob) m es then
            let ob1 := match m with MErr => o_with_err true ob | _ => ob end in
            let s1 := with_nets (match m with MNothing => p_nets s | _ => break_net (o_net ob) (p_nets s) end) s in
            if o_closed ob then Some (with_heap (upd o ob1 (p_heap s)) s1)
            else match es with
                 | [] => Some (with_heap (upd o ob1 (p_heap s)) s1)
                 | _ =>
                     let s2 := with_out (remove_nat o (p_out s)) s1 in
                     if o_pool ob then
                       let '(os, h) := put_back ob1 es (upd o ob1 (p_heap s)) in
                       Some (with_heap h (with_pc t (CPut os) s2))
                     else Some (with_nets (shut_net (o_net ob) (p_nets s2)) (with_heap (upd o (o_with_closed ob1) (p_heap s)) s2))
                 end
          else None
      | _, _ => None
      end
  | AShut t r =>
      match nth_error (p_pcs s) t with
      | Some (PLoop []) => Some (with_closed (with_pc t (PRet true) s))
      | Some (PLoop (o :: os)) =>
          match nth_error (p_heap s) o with
          | None => None
          | Some ob =>
              if o_closed ob then Some (with_heap (upd o (o_unpooled ob) (p_heap s)) (with_pc t (PLoop os) s))
              else match r with
                   | ShStmt => Some (with_closed (with_heap (upd o (o_unpooled ob) (p_heap s)) (with_pc t (PRet false) s)))
                   | ShNet =>
                       Some (with_closed (with_nets (shut_net (o_net ob) (p_nets s))
                         (with_heap (upd o (o_with_err true (o_with_closed (o_unpooled ob))) (p_heap s)) (with_pc t (PRet false) s))))
                   | ShOk =>
                       Some (with_nets (shut_net (o_net ob) (p_nets s))
                         (with_heap (upd o (o_with_closed (o_unpooled ob)) (p_heap s)) (with_pc t (PLoop os) s)))
                   end
          end
      | _ => None
      end
  end.

Fixpoint pruns (s : pool) (l : list action) : option pool :=
  match l with
  | [] => Some s
  | a :: l => match pstep s a with Some s' => pruns s' l | None => None end
  end.

(** Discipline of the callers: connections are used only while handed out, and Close is
    called on each once (calls of Close made by the driver itself while serving another call
    count as well). *)
Definition careful (s : pool) (a : action) : bool :=
  match a with
  | ACall _ o _ es => existsb (Nat.eqb o) (p_out s) && (length es <=? 1)
  | _ => true
  end.
(** The server answers a refused INIT properly, so that initialize puts the connection
    back once. *)
Definition polite (a : action) : bool :=
  match a with AInit _ _ (IHalf es) => length es =? 1 | _ => true end.
(** Whenever initialize fails after dialling, connErr is set. *)
Definition marked (a : action) : bool :=
  match a with AInit _ _ (IHalf es) => forallb (fun e => e) es | _ => true end.
(** No call meets the end of the stream; a network error comes before the call hands the
    connection back. *)
Definition prompt (a : action) : bool :=
  match a with
  | ACall _ _ MEof _ => false
  | ACall _ _ MErr es => forallb (fun e => e) es
  | _ => true
  end.

Fixpoint all_runs (P : pool -> action -> bool) (s : pool) (l : list action) : bool :=
  match l with
  | [] => true
  | a :: l => P s a && match pstep s a with Some s' => all_runs P s' l | None => true end
  end.
