(** The session over a byte stream: the network operations of Session.v in terms of
    the codec model (Encoder.v, Decoder.v) and of the handshake (Misc.v).

    A transport is any type of states with: one Write call; what the Read calls will
    return as long as nothing more is written; the state after part of that was read;
    closing.  Which bytes come back may depend on everything written before. *)
From Coq Require Import ZArith List Bool.
From Verif Require Import GoPrims Value Encoder Decoder Errors Misc Session.
Import ListNotations.
Open Scope Z_scope.

Record transport (T : Type) := {
  t_put : T -> bytes -> T * wcall;           (* conn.go:340-357 *)
  t_in : T -> reader;                        (* conn.go:320-337 *)
  t_left : T -> reader -> T;
  t_close : T -> T * bool                    (* conn.go:383; true: failed *)
}.
Arguments t_put {T}. Arguments t_in {T}. Arguments t_left {T}. Arguments t_close {T}.

(** The value decoder.go returns together with an error, as far as a type switch on it
    can tell: the functions that decode a structure, list, map or scalar return the zero
    value (decoder.go:131-151, 249-282, 321-513).  Node, relationship and path fields
    decoded so far are not kept; no caller looks at them. *)
Definition partial_of (msg : bytes) : option goval :=
  match msg with
  | [] => None
  | m :: r =>
      let st (r : bytes) : option goval :=
        match r with
        | [] => None
        | sig :: _ =>
            if sig =? 0x4E then Some (VNode 0 [] [])
            else if sig =? 0x52 then Some (VRel 0 0 0 [] [])
            else if sig =? 0x50 then Some (VPath [] [] [])
            else if sig =? 0x72 then Some (VURel 0 [] [])
            else if sig =? 0x71 then Some (VRecord [])
            else if sig =? 0x7F then Some (VFailure [])
            else if sig =? 0x70 then Some (VSuccess [])
            else None
        end in
      if (m =? 0xC8) || (m =? 0xC9) || (m =? 0xCA) || (m =? 0xCB) then Some (VInt KInt64 0)
      else if m =? 0xC1 then Some (VF64 0)
      else if (0x90 <=? m) && (m <=? 0x9F) || (m =? 0xD4) || (m =? 0xD5) || (m =? 0xD6) then Some (VSlice [])
      else if (0xA0 <=? m) && (m <=? 0xAF) || (m =? 0xD8) || (m =? 0xD9) || (m =? 0xDA) then Some (VMap [])
      else if (0xB0 <=? m) && (m <=? 0xBF) then st r
      else if m =? 0xDC then st (skipn 1 r)
      else if m =? 0xDD then st (skipn 2 r)
      else None
  end.
(** The error value; lines of decoder.go.  io.ErrUnexpectedEOF is [EOther 0]. *)
Definition gerr_of (e : derr) : gerr :=
  match e with
  | DEStream RBad => ewrap FDec 45 EBadConn
  | DEStream _ => ewrap FDec 45 EEOF
  | DEZeroRead => enew FDec 78
  | DEMarkerEOF => ewrap FDec 105 EEOF
  | DEShort => EOther 0
  | DEEof => EEOF
  | DEMarker => enew FDec 244
  | DEKey => enew FDec 276
  | DESig => enew FDec 317
  | DEType => enew FDec 336
  end.

Section Net.
Context {T : Type} (io : transport T).
Variable mk : bool.

(** Write calls until one fails (encoder.go:107-164, every error is passed up). *)
Fixpoint puts (t : T) (ps : list bytes) : T * bool :=
  match ps with
  | [] => (t, true)
  | p :: ps' => let '(t1, w) := t_put io t p in if wc_err w then (t1, false) else puts t1 ps'
  end.
(** encoding.NewDecoder(c).Decode() on what can be read. *)
Definition recv (r : reader) : reader * rres :=
  match read_msg r with
  | FErr (DEStream RBad) rest => (rest, RNet)
  | FErr e rest => (rest, RDec None (gerr_of e))
  | FFuel => (r, RCrash)                                 (* does not happen: read_msg_total *)
  | FOk msg rest =>
      match decode mk msg with
      | DOk v _ => (rest, RMsg v)
      | DErr e => (rest, RDec (partial_of msg) (gerr_of e))
      | DPanic => (rest, RCrash)
      | DFuel => (rest, RCrash)                          (* does not happen: decode_total *)
      end
  end.
Definition bytenet : netops T :=
  {| n_send := fun t cs v =>
       let '(outs, e) := encode cs v in
       let '(t', ok) := puts t outs in
       (t', if ok then match e with None => SOk | Some _ => SRejected end else SIOErr);
     n_recv := fun t => let '(r, x) := recv (t_in io t) in (t_left io t r, x);
     n_close := t_close io;
     n_shake := fun t =>
       let '(t1, w) := t_put io t handshake_bytes in
       let '(e, r) := handshake w (t_in io t1) in
       if wc_n w =? 20 then
         (t_left io t1 r, (wc_err w || match snd (fst (read_once 4 (t_in io t1))) with Some EBadConn => true | _ => false end, e))
       else (t1, (wc_err w, e)) |}.
End Net.
