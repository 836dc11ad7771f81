(** A pool, the connections it hands out and one database: the pool machine of Pool.v, in which
    every call on a connection is a call of the session model on the network of that connection. *)
From Coq Require Import ZArith List Bool Arith Lia.
From Verif Require Import GoPrims Value Errors Misc Session SessionVoc SessionGen SessionFuel SessionSim SessionRaw SessionStay ServerSpec SessionSpec SessionBolt SessionRefine
  Pool PoolInv PoolLink PropsSql PropsSystem.
Import ListNotations.

Section PoolSystem.
Context {DB : Type}.
Variable exec : DB -> str -> md -> DB * outcome.
Variable sendable : goval -> bool.
Variable mk : bool.
Notation server := (@server DB).
Notation shared := (shared exec sendable).

(** ** The network: the server of PropsSystem.v, whose reads and writes fail now and then.  One list
    of faults for all connections, one entry for each operation; [s_hit]: one has happened.
    A failing write loses the message or delivers it; a failing read times out. *)
Record troubled := { s_srv : server; s_faults : list fault; s_hit : bool }.
Definition fault_now (n : troubled) : fault := match s_faults n with [] => Good | x :: _ => x end.
Definition noisy (me : nat) : netops troubled :=
  {| n_send := fun n cs v =>
       let '(srv, r) := n_send (shared me) (s_srv n) cs v in
       match fault_now n with
       | Good => ({| s_srv := srv; s_faults := tl (s_faults n); s_hit := s_hit n |}, r)
       | Lost => ({| s_srv := s_srv n; s_faults := tl (s_faults n); s_hit := true |}, SIOErr)
       | Late => ({| s_srv := srv; s_faults := tl (s_faults n); s_hit := true |}, SIOErr)
       end;
     n_recv := fun n =>
       let '(srv, r) := n_recv (shared me) (s_srv n) in
       match fault_now n with
       | Good => ({| s_srv := srv; s_faults := tl (s_faults n); s_hit := s_hit n |}, r)
       | _ => ({| s_srv := s_srv n; s_faults := tl (s_faults n); s_hit := true |}, RNet)
       end;
     n_close := fun n => (n, false);
     n_shake := fun n => (n, (false, None)) |}.

(** ** The whole system: the pool, what the driver keeps for each of its connections (by the
    number of the connection in [p_heap]), the server (sessions by the number of the network
    connection in [p_nets]). *)
Record psys := { z_pool : pool; z_sides : nat -> side; z_srv : server; z_faults : list fault }.
Definition at_conn (z : psys) (o : nat) : world troubled :=
  let d := z_sides z o in Build_world (d_conn d) (d_stmts d) (d_rows d) (d_txs d) {| s_srv := z_srv z; s_faults := z_faults z; s_hit := false |}.
Definition side_of {N} (w : world N) : side := Build_side (w_conn w) (w_stmts w) (w_rows w) (w_txs w).
(** conn.go:87-94, 110-115 newPooledBoltConn *)
Definition fresh_side : side := Build_side (w_conn (fresh true tt)) [] [] [].
(** driver.go:176-195 reclaim: a new connection, or a copy *)
Definition given_back (e : bool) (d : side) : side := if e || c_closed (d_conn d) then fresh_side else d.
Fixpoint put_sides (d : side) (es : list bool) (i : nat) (f : nat -> side) : nat -> side :=
  match es with
  | [] => f
  | e :: es' => put_sides d es' (S i) (put f i (given_back e d))
  end.
(** driver.go:132-137: the connection a goroutine has taken from the channel, and whether it is
    dialled (conn.go:263-316 initialize, which leaves everything but the network as it is). *)
Definition holds (p : pool) (t : nat) : option (nat * obj) :=
  match nth_error (p_pcs p) t with
  | Some (OHave o) => match nth_error (p_heap p) o with Some ob => Some (o, ob) | None => None end
  | _ => None
  end.
Definition dials (ob : obj) (dead : bool) : bool := match o_net ob with None => true | Some _ => dead end.
Definition init_sides (z : psys) (a : action) : nat -> side :=
  match a with
  | AInit t dead r =>
      match holds (z_pool z) t with
      | Some (o, ob) =>
          if dials ob dead then
            match r with
            | IReady => z_sides z
            | INoDial => put_sides (z_sides z o) [o_err ob] (length (p_heap (z_pool z))) (z_sides z)
            | IHalf es => put_sides (z_sides z o) es (length (p_heap (z_pool z))) (z_sides z)
            end
          else z_sides z
      | None => z_sides z
      end
  | _ => z_sides z
  end.
Definition init_srv (z : psys) (a : action) : server :=
  match a with
  | AInit t dead IReady =>
      match holds (z_pool z) t with
      | Some (o, ob) =>
          if dials ob dead then Build_server (v_db (z_srv z)) (put (v_sess (z_srv z)) (length (p_nets (z_pool z))) (Ready, [])) else z_srv z
      | None => z_srv z
      end
  | _ => z_srv z
  end.

(** What happens outside of calls: goroutines in OpenPool, and handing connections back.  Dialling
    fails or succeeds; after dialling, initialize succeeds or meets a network error that marks the
    connection (a refused INIT is C44, two returns of one connection C42, the end of the stream C47).
    The pool is not closed. *)
Definition allowed (a : action) : bool :=
  match a with ACall _ _ _ _ | APool _ | AShut _ _ => false | _ => polite a && marked a end.

(** What the program sees: OpenPool returns connection [o] to goroutine [t]; a call on connection
    [o] ends, with the database after it, and whether the network failed in it. *)
Inductive happening := Given (t o : nat) | Answer (t o : nat) (c : op) (x : outc out) (db : DB) (hit : bool).
Definition seen (p : pool) (a : action) : list happening :=
  match a with ARet t => match nth_error (p_pcs p) t with Some (OGive o) => [Given t o] | _ => [] end | _ => [] end.
Inductive zstep : psys -> list happening -> psys -> Prop :=
| Z_pool : forall z a p', allowed a = true -> pstep (z_pool z) a = Some p' ->
    zstep z (seen (z_pool z) a) {| z_pool := p'; z_sides := init_sides z a; z_srv := init_srv z a; z_faults := z_faults z |}
| Z_call : forall z t o c ob k f x w' es p',
    nth_error (p_heap (z_pool z)) o = Some ob -> o_net ob = Some k ->
    step (noisy k) mk f c (at_conn z o) = (x, w') -> x <> NoFuel ->
    c_reclaims (w_conn w') = c_reclaims (d_conn (z_sides z o)) ++ es ->
    pstep (z_pool z) (ACall t o (met_of (c_err (d_conn (z_sides z o))) (c_err (w_conn w'))) es) = Some p' ->
    zstep z [Answer t o c x (v_db (s_srv (w_net w'))) (s_hit (w_net w'))]
      {| z_pool := p'; z_sides := put_sides (side_of w') es (length (p_heap (z_pool z))) (put (z_sides z) o (side_of w'));
         z_srv := s_srv (w_net w'); z_faults := s_faults (w_net w') |}.
Inductive goes : psys -> list happening -> psys -> Prop :=
| goes_nil : forall z, goes z [] z
| goes_step : forall z l z1 l' z2, zstep z l z1 -> goes z1 l' z2 -> goes z (l ++ l') z2.
Definition new_system (max n : nat) (sess : nat -> sstate * list goval) (faults : list fault) (db : DB) : psys :=
  {| z_pool := new_pool max n; z_sides := fun _ => fresh_side; z_srv := Build_server db sess; z_faults := faults |}.

(** ** What the program may expect
    Connection [o] is with nobody; or somebody has it and uses it as the abstract machine of
    SessionSpec.v says; or the network has failed on it, and it may be closed; or its
    user has made a call for which the machine promises nothing. *)
Inductive use := Away | Run (s : sst DB) | Broken | Wild.
Definition ended (c : op) (x : outc out) : bool := match c, x with CClose, Ok (OErr None) => true | _, _ => false end.
Fixpoint serves (db : DB) (us : nat -> use) (l : list happening) : Prop :=
  match l with
  | [] => True
  | Given t o :: l' => us o = Away /\ serves db (put us o (Run (start db))) l'
  | Answer t o c x db' hit :: l' =>
      let broken := serves db' (put us o (if ended c x then Away else Broken)) l' in
      match us o with
      | Away => True                                       (* a connection that was not handed out, or closed *)
      | Broken => broken
      | Wild => if hit then broken else match c with CClose => True | _ => serves db' (put us o Wild) l' end
      | Run s =>
          if hit then broken
          else match expect exec sendable mk true (with_db db s) c with
               | None => match c with CClose => True | _ => serves db' (put us o Wild) l' end
               | Some (a, k) =>
                   exists r, x = Ok r /\ conforms a r /\ db' = sp_db (k (handle_of r)) /\
                     serves db' (put us o (if ended c x then Away else Run (k (handle_of r)))) l'
               end
      end
  end.
(** The database and the uses of the connections after a history, as far as anything is promised. *)
Fixpoint after (db : DB) (us : nat -> use) (l : list happening) : option (DB * (nat -> use)) :=
  match l with
  | [] => Some (db, us)
  | Given t o :: l' => after db (put us o (Run (start db))) l'
  | Answer t o c x db' hit :: l' =>
      let broken := after db' (put us o (if ended c x then Away else Broken)) l' in
      match us o with
      | Away => None
      | Broken => broken
      | Wild => if hit then broken else match c with CClose => None | _ => after db' (put us o Wild) l' end
      | Run s =>
          if hit then broken
          else match expect exec sendable mk true (with_db db s) c, x with
               | Some (a, k), Ok r => after db' (put us o (if ended c x then Away else Run (k (handle_of r)))) l'
               | Some _, _ => None
               | None, _ => match c with CClose => None | _ => after db' (put us o Wild) l' end
               end
      end
  end.
End PoolSystem.
