(** Model of encoding/decoder.go and encoding/util.go. *)
From Coq Require Import ZArith List Bool.
From Verif Require Import GoPrims Value.
Import ListNotations.
Open Scope Z_scope.

(** ** Reading a message from the stream *)

(** What successive calls [r.Read(b)] on the underlying io.Reader return.
    [RData l]: the bytes of [l] are available (a Read with a smaller buffer
    takes only part of them); [RFail]: a Read fails without data.  The end of
    the list is io.EOF.  [RData []] is a Read returning (0, nil).
    Readers returning data together with an error are in PropsLate.v. *)
Inductive rev := RData (l : bytes) | RFail.
Definition reader := list rev.

Inductive rstatus := ROk | REof | RBad.

(** io.ReadFull(d.r, buf) with len(buf) = n (n > 0): bytes read, status, rest.
    [REof] stands for both io.EOF and io.ErrUnexpectedEOF. *)
Fixpoint read_full (n : Z) (r : reader) : bytes * rstatus * reader :=
  match r with
  | [] => ([], REof, [])
  | RFail :: r' => ([], RBad, r')
  | RData l :: r' =>
      if zlen l <? n then
        let '(more, st, rest) := read_full (n - zlen l) r' in (l ++ more, st, rest)
      else if zlen l =? n then (l, ROk, r')
      else (ztake n l, ROk, RData (zdrop n l) :: r')
  end.

(** Errors of Decoder.read / decode, enough to tell the causes apart. *)
Inductive derr :=
| DEStream (st : rstatus)       (* decoder.go:45, 76: I/O error, wrapped *)
| DEZeroRead                    (* decoder.go:78 *)
| DEMarkerEOF                   (* decoder.go:105 *)
| DEShort                       (* binary.Read hit the end of the message *)
| DEEof                         (* the same with no byte left at all and the error returned
                                   unwrapped, i.e. the caller gets io.EOF itself: decoder.go:133-151 *)
| DEMarker                      (* decoder.go:244 *)
| DEKey                         (* decoder.go:276 *)
| DESig                         (* decoder.go:317 *)
| DEType.                       (* unexpected dynamic type, decoder.go:336 ... *)

(** decoder.go:69-89 readData.  [output] is the preallocated array of
    [messageLen] zeroes; each Read fills [data], a fresh zeroed array of
    length [messageLen-totalRead], of which ALL bytes are copied
    (decoder.go:81-83).  uint16 arithmetic cannot overflow here because
    totalRead < messageLen <= 65535. *)
Fixpoint read_data (messageLen totalRead : Z) (output : bytes) (r : reader)
  : (bytes + derr) * reader :=
  if totalRead <? messageLen then
    match r with
    | [] => (inr (DEStream REof), [])
    | RFail :: r' => (inr (DEStream RBad), r')
    | RData l :: r' =>
        let want := messageLen - totalRead in
        let got := ztake want l in
        let numRead := zlen got in
        if numRead =? 0 then (inr DEZeroRead, r')
        else
          let data := got ++ repeat 0 (Z.to_nat (want - numRead)) in
          let output' := ztake totalRead output ++ data in
          if want <? zlen l then (inl output', RData (zdrop want l) :: r')
          else read_data messageLen (totalRead + numRead) output' r'
    end
  else (inl output, r).

(** decoder.go:40-67 read: chunks until a zero length.  Fuel: one unit per
    chunk; [FFuel] is proved unreachable with the fuel used in [read_msg]. *)
Inductive fres := FOk (msg : bytes) (rest : reader) | FErr (e : derr) (rest : reader) | FFuel.

Fixpoint read_chunks (fuel : nat) (output : bytes) (r : reader) : fres :=
  match fuel with
  | O => FFuel
  | S fuel' =>
      let '(lengthBytes, st, r1) := read_full 2 r in
      if negb (zlen lengthBytes =? 2) then FErr (DEStream st) r1
      else
        let messageLen := ube lengthBytes in
        if messageLen =? 0 then FOk output r1
        else
          match read_data messageLen 0 (repeat 0 (Z.to_nat messageLen)) r1 with
          | (inl data, r2) => read_chunks fuel' (output ++ data) r2
          | (inr e, r2) => FErr e r2
          end
  end.

Fixpoint rbytes (r : reader) : bytes :=
  match r with
  | [] => []
  | RData l :: r' => l ++ rbytes r'
  | RFail :: r' => rbytes r'
  end.

Definition read_msg (r : reader) : fres := read_chunks (S (length (rbytes r))) [] r.

(** ** Decoding a message *)

Inductive dres (A : Type) :=
| DOk (a : A) (rest : bytes)    (* value, unread part of the message buffer *)
| DErr (e : derr)
| DPanic                        (* run-time panic in the caller's goroutine *)
| DFuel.
Arguments DOk {A}. Arguments DErr {A}. Arguments DPanic {A}. Arguments DFuel {A}.

Definition dbind {A B} (x : dres A) (f : A -> bytes -> dres B) : dres B :=
  match x with
  | DOk a r => f a r
  | DErr e => DErr e
  | DPanic => DPanic
  | DFuel => DFuel
  end.

(** binary.Read of an [n]-byte integer from the message buffer *)
Definition rd (n : Z) (b : bytes) : dres bytes :=
  if zlen b <? n then DErr DEShort else DOk (ztake n b) (zdrop n b).

(** Signed [n]-byte integer (decoder.go:131-146 and all size fields) *)
Definition rd_int (n : Z) (b : bytes) : dres Z := dbind (rd n b) (fun x r => DOk (sbe x) r).

(** Scalars, decoder.go:131-151: the error of binary.Read is returned as it is,
    io.EOF when nothing is left, io.ErrUnexpectedEOF ([DEShort]) otherwise. *)
Definition rd_scalar (n : Z) (b : bytes) : dres bytes := if zlen b =? 0 then DErr DEEof else rd n b.
Definition rd_int_scalar (n : Z) (b : bytes) : dres Z := dbind (rd_scalar n b) (fun x r => DOk (sbe x) r).

(** string(buffer.Next(size)): short buffers give short strings, negative
    sizes panic with "slice bounds out of range" (bytes.Buffer.Next). *)
Definition next_str (size : Z) (b : bytes) : dres goval :=
  if size <? 0 then DPanic else DOk (VStr (ztake size b)) (zdrop size b).

(** encoding/util.go:8-62; [None] stands for the returned error *)
Fixpoint to_strings (l : list goval) : option (list str) :=
  match l with
  | [] => Some []
  | VStr s :: l' => match to_strings l' with Some r => Some (s :: r) | None => None end
  | _ :: _ => None
  end.

Definition is_node (v : goval) : bool := match v with VNode _ _ _ => true | _ => false end.
Definition is_urel (v : goval) : bool := match v with VURel _ _ _ => true | _ => false end.

(** util.go:20-26 sliceInterfaceToInt: the type assertion panics; here [None] is
    that panic. *)
Fixpoint to_ints (l : list goval) : option (list Z) :=
  match l with
  | [] => Some []
  | VInt KInt64 z :: l' => match to_ints l' with Some r => Some (z :: r) | None => None end
  | _ :: _ => None
  end.

Section Decode.
(** [make(map[string]interface{}, size)] with a negative size hint panics up to
    Go 1.9 ("makemap: size out of range") and is treated as 0 from Go 1.10 on;
    .travis.yml supports both.  Everything is proved for both. *)
Variable mk_panics : bool.

(** x.(int64) without comma-ok: panics on any other dynamic type
    (decoder.go:328, 363, 369, 375, 448). *)
Definition as_int64 {A} (v : goval) (k : Z -> dres A) : dres A :=
  match v with VInt KInt64 z => k z | _ => DPanic end.
(** x.(T) with comma-ok and an error otherwise *)
Definition as_str {A} (v : goval) (k : str -> dres A) : dres A :=
  match v with VStr s => k s | _ => DErr DEType end.
Definition as_map {A} (v : goval) (k : list (str * goval) -> dres A) : dres A :=
  match v with VMap m => k m | _ => DErr DEType end.
Definition as_slice {A} (v : goval) (k : list goval -> dres A) : dres A :=
  match v with VSlice l => k l | _ => DErr DEType end.

(** decoder.go:101-247 decode, 249-260 decodeSlice, 262-282 decodeMap,
    284-319 decodeStruct and 321-529 for the individual structures.
    Fuel bounds the recursion depth; [decode] below supplies enough. *)
Fixpoint dec (f : nat) (b : bytes) {struct f} : dres goval :=
  match f with
  | O => DFuel
  | S f =>
    match b with
    | [] => DErr DEMarkerEOF
    | m :: r =>
      let markerInt := wraps 8 m in
      if m =? 0xC0 then DOk VNil r
      else if m =? 0xC3 then DOk (VBool true) r
      else if m =? 0xC2 then DOk (VBool false) r
      else if (-16 <=? markerInt) && (markerInt <=? 127) then DOk (VInt KInt64 (wraps 8 m)) r
      else if m =? 0xC8 then dbind (rd_int_scalar 1 r) (fun z r => DOk (VInt KInt64 z) r)
      else if m =? 0xC9 then dbind (rd_int_scalar 2 r) (fun z r => DOk (VInt KInt64 z) r)
      else if m =? 0xCA then dbind (rd_int_scalar 4 r) (fun z r => DOk (VInt KInt64 z) r)
      else if m =? 0xCB then dbind (rd_int_scalar 8 r) (fun z r => DOk (VInt KInt64 z) r)
      else if m =? 0xC1 then dbind (rd_scalar 8 r) (fun x r => DOk (VF64 (ube x)) r)
      else if (0x80 <=? m) && (m <=? 0x80 + 0x0F) then
        let size := m - 0x80 in
        if size =? 0 then DOk (VStr []) r else next_str size r
      else if m =? 0xD0 then dbind (rd_int 1 r) next_str
      else if m =? 0xD1 then dbind (rd_int 2 r) next_str
      else if m =? 0xD2 then dbind (rd_int 4 r) next_str
      else if (0x90 <=? m) && (m <=? 0x90 + 0x0F) then dec_slice f (m - 0x90) r
      else if m =? 0xD4 then dbind (rd_int 1 r) (dec_slice f)
      else if m =? 0xD5 then dbind (rd_int 2 r) (dec_slice f)
      else if m =? 0xD6 then dbind (rd_int 4 r) (dec_slice f)
      else if (0xA0 <=? m) && (m <=? 0xA0 + 0x0F) then dec_map f (m - 0xA0) r
      else if m =? 0xD8 then dbind (rd_int 1 r) (dec_map f)
      else if m =? 0xD9 then dbind (rd_int 2 r) (dec_map f)
      else if m =? 0xDA then dbind (rd_int 4 r) (dec_map f)
      else if (0xB0 <=? m) && (m <=? 0xB0 + 0x0F) then dec_struct f r
      else if m =? 0xDC then dbind (rd_int 1 r) (fun _ r => dec_struct f r)
      else if m =? 0xDD then dbind (rd_int 2 r) (fun _ r => dec_struct f r)
      else DErr DEMarker
    end
  end
with dec_slice (f : nat) (size : Z) (b : bytes) {struct f} : dres goval :=
  match f with
  | O => DFuel
  | S f =>
    (* make([]interface{}, size) panics on a negative size *)
    if size <? 0 then DPanic
    else dbind (dec_n f size b) (fun l r => DOk (VSlice l) r)
  end
(* decoder.go:251-257 / the loop of decodeSlice, [n] iterations to go *)
with dec_n (f : nat) (n : Z) (b : bytes) {struct f} : dres (list goval) :=
  match f with
  | O => DFuel
  | S f =>
    if n <=? 0 then DOk [] b
    else dbind (dec f b) (fun v r =>
         dbind (dec_n f (n - 1) r) (fun l r => DOk (v :: l) r))
  end
with dec_map (f : nat) (size : Z) (b : bytes) {struct f} : dres goval :=
  match f with
  | O => DFuel
  | S f =>
    if (size <? 0) && mk_panics then DPanic
    else dbind (dec_m f size [] b) (fun m r => DOk (VMap m) r)
  end
(* decoder.go:264-279 / the loop of decodeMap: key, value, then the key check *)
with dec_m (f : nat) (n : Z) (acc : list (str * goval)) (b : bytes) {struct f}
  : dres (list (str * goval)) :=
  match f with
  | O => DFuel
  | S f =>
    if n <=? 0 then DOk acc b
    else dbind (dec f b) (fun k r =>
         dbind (dec f r) (fun v r =>
         match k with
         | VStr s => dec_m f (n - 1) (mput s v acc) r
         | _ => DErr DEKey
         end))
  end
with dec_struct (f : nat) (b : bytes) {struct f} : dres goval :=
  match f with
  | O => DFuel
  | S f =>
    match b with
    | [] => DErr DEMarkerEOF
    | sig :: r =>
      if sig =? 0x4E then                                    (* decoder.go:321-354 *)
        dbind (dec f r) (fun i r => as_int64 i (fun id =>
        dbind (dec f r) (fun l r => as_slice l (fun ls =>
        match to_strings ls with
        | None => DErr DEType
        | Some labels =>
          dbind (dec f r) (fun p r => as_map p (fun props =>
          DOk (VNode id labels props) r))
        end))))
      else if sig =? 0x52 then                               (* decoder.go:356-397 *)
        dbind (dec f r) (fun i r => as_int64 i (fun id =>
        dbind (dec f r) (fun i r => as_int64 i (fun s =>
        dbind (dec f r) (fun i r => as_int64 i (fun e =>
        dbind (dec f r) (fun t r => as_str t (fun ty =>
        dbind (dec f r) (fun p r => as_map p (fun props =>
        DOk (VRel id s e ty props) r))))))))))
      else if sig =? 0x50 then                               (* decoder.go:399-439 *)
        dbind (dec f r) (fun n r => as_slice n (fun ns =>
        if forallb is_node ns then
          dbind (dec f r) (fun x r => as_slice x (fun rs =>
          if forallb is_urel rs then
            dbind (dec f r) (fun q r => as_slice q (fun qs =>
            match to_ints qs with
            | None => DPanic
            | Some seq => DOk (VPath ns rs seq) r
            end))
          else DErr DEType))
        else DErr DEType))
      else if sig =? 0x72 then                               (* decoder.go:441-470 *)
        dbind (dec f r) (fun i r => as_int64 i (fun id =>
        dbind (dec f r) (fun t r => as_str t (fun ty =>
        dbind (dec f r) (fun p r => as_map p (fun props =>
        DOk (VURel id ty props) r))))))
      else if sig =? 0x71 then                               (* decoder.go:472-483 *)
        dbind (dec f r) (fun l r => as_slice l (fun fs => DOk (VRecord fs) r))
      else if sig =? 0x7F then                               (* decoder.go:485-496 *)
        dbind (dec f r) (fun m r => as_map m (fun md => DOk (VFailure md) r))
      else if sig =? 0x7E then DOk VIgnored r                (* decoder.go:498-500 *)
      else if sig =? 0x70 then                               (* decoder.go:502-513 *)
        dbind (dec f r) (fun m r => as_map m (fun md => DOk (VSuccess md) r))
      else if sig =? 0x0E then DOk VAckFailure r             (* decoder.go:515-529 *)
      else if sig =? 0x2F then DOk VDiscardAll r
      else if sig =? 0x3F then DOk VPullAll r
      else if sig =? 0x0F then DOk VReset r
      else DErr DESig
    end
  end.

Definition decode_fuel (b : bytes) : nat := (3 * length b + 3)%nat.

(** Decoding of a complete message buffer: d.decode(data) *)
Definition decode (b : bytes) : dres goval := dec (decode_fuel b) b.

Inductive dout := DVal (v : goval) | DFail (e : derr) | DCrash | DHang.

(** decoder.go:92-99 Decode: read a message, decode its first value (trailing
    bytes of the message buffer are dropped).  Also returns the reader. *)
Definition Decode (r : reader) : dout * reader :=
  match read_msg r with
  | FErr e rest => (DFail e, rest)
  | FFuel => (DHang, r)
  | FOk msg rest =>
      match decode msg with
      | DOk v _ => (DVal v, rest)
      | DErr e => (DFail e, rest)
      | DPanic => (DCrash, rest)
      | DFuel => (DHang, rest)
      end
  end.

(** decoder.go:35-37 Unmarshal *)
Definition unmarshal (b : bytes) : dout := fst (Decode [RData b]).
End Decode.
