(** Model of encoding/encoder.go.

    The encoder never looks at what it wrote before, so [enc v] is the sequence
    of calls [e.Write(p)] made by [e.encode(v)] (directly or through
    [binary.Write], which makes exactly one [Write] call per value) up to the
    end or up to the first error.  [chunk]/[flush] then model what these calls
    do to the temporary buffer and to the underlying writer. *)
From Coq Require Import ZArith List Bool.
From Verif Require Import GoPrims Value.
Import ListNotations.
Open Scope Z_scope.

(** Errors created by the encoder itself (encoder.go:195, 221, 291, 348, 382,
    424, 464).  Wrapping of field errors (encoder.go:474) keeps the cause and is
    not represented. *)
Inductive eerr := EUnrecognized | EIntTooBig | EIntTooLong | EStrTooLong
                | ESliceTooLong | EMapTooLong | EStructTooLong.

(** Writes performed, and the error that stopped the encoding, if any. *)
Definition wres := (list bytes * option eerr)%type.

Definition wok (ws : list bytes) : wres := (ws, None).
Definition werr (e : eerr) : wres := ([], Some e).

(** Sequencing with "if err != nil { return err }". *)
Definition wseq (a b : wres) : wres :=
  match snd a with
  | Some _ => a
  | None => (fst a ++ fst b, snd b)
  end.

Fixpoint wseqs (l : list wres) : wres :=
  match l with
  | [] => wok []
  | a :: l' => wseq a (wseqs l')
  end.

(** encoder.go:227-240 encodeNil, encodeBool *)
Definition enc_nil : wres := wok [[0xC0]].
Definition enc_bool (b : bool) : wres := wok [[if b then 0xC3 else 0xC2]].

Definition minInt64 := - 2 ^ 63.  Definition maxInt64 := 2 ^ 63 - 1.
Definition minInt32 := - 2 ^ 31.  Definition maxInt32 := 2 ^ 31 - 1.
Definition minInt16 := - 2 ^ 15.  Definition maxInt16 := 2 ^ 15 - 1.
Definition minInt8 := - 2 ^ 7.    Definition maxInt8 := 2 ^ 7 - 1.
Definition maxUint8 := 2 ^ 8 - 1. Definition maxUint16 := 2 ^ 16 - 1.
Definition maxUint32 := 2 ^ 32 - 1.

(** encoder.go:242-297 encodeInt, case by case *)
Definition enc_int (v : Z) : wres :=
  if (minInt64 <=? v) && (v <? minInt32) then wok [[0xCB]; be 8 v]
  else if (minInt32 <=? v) && (v <? minInt16) then wok [[0xCA]; be 4 (wraps 32 v)]
  else if (minInt16 <=? v) && (v <? minInt8) then wok [[0xC9]; be 2 (wraps 16 v)]
  else if (minInt8 <=? v) && (v <? -16) then wok [[0xC8]; be 1 (wraps 8 v)]
  else if (-16 <=? v) && (v <=? maxInt8) then wok [be 1 (wraps 8 v)]
  else if (maxInt8 <? v) && (v <=? maxInt16) then wok [[0xC9]; be 2 (wraps 16 v)]
  else if (maxInt16 <? v) && (v <=? maxInt32) then wok [[0xCA]; be 4 (wraps 32 v)]
  else if (maxInt32 <? v) && (v <=? maxInt64) then wok [[0xCB]; be 8 v]
  else werr EIntTooLong.

(** encoder.go:299-310 encodeFloat; [bits] is math.Float64bits.  float32 values
    are first converted by [GoPrims.f32_to_f64] (encoder.go:198-199). *)
Definition enc_float (bits : Z) : wres := wok [[0xC1]; be 8 bits].

(** encoder.go:312-351 encodeString *)
Definition enc_str (s : str) : wres :=
  let length := zlen s in
  if length <=? 15 then wok [[wrapu 8 (0x80 + length)]; s]
  else if (15 <? length) && (length <=? maxUint8) then wok [[0xD0]; be 1 (wraps 8 length); s]
  else if (maxUint8 <? length) && (length <=? maxUint16) then wok [[0xD1]; be 2 (wraps 16 length); s]
  else if (maxUint16 <? length) && (length <=? maxUint32) then wok [[0xD2]; be 4 (wraps 32 length); s]
  else werr EStrTooLong.

(** encoder.go:353-393 encodeSlice; [items] are the encodings of the elements *)
Definition enc_slice (items : list wres) : wres :=
  let length := zlen items in
  let body := wseqs items in
  if length <=? 15 then wseq (wok [[wrapu 8 (0x90 + length)]]) body
  else if (15 <? length) && (length <=? maxUint8) then wseq (wok [[0xD4]; be 1 (wraps 8 length)]) body
  else if (maxUint8 <? length) && (length <=? maxUint16) then wseq (wok [[0xD5]; be 2 (wraps 16 length)]) body
  else if (maxUint16 <=? length) && (length <=? maxUint32) then wseq (wok [[0xD6]; be 4 (wraps 32 length)]) body
  else werr ESliceTooLong.

(** encoder.go:395-438 encodeMap; [items] are the encodings of key and value *)
Definition enc_map (items : list (wres * wres)) : wres :=
  let length := zlen items in
  let body := wseqs (map (fun kv => wseq (fst kv) (snd kv)) items) in
  if length <=? 15 then wseq (wok [[wrapu 8 (0xA0 + length)]]) body
  else if (15 <? length) && (length <=? maxUint8) then wseq (wok [[0xD8]; be 1 (wraps 8 length)]) body
  else if (maxUint8 <? length) && (length <=? maxUint16) then wseq (wok [[0xD9]; be 2 (wraps 16 length)]) body
  else if (maxUint16 <=? length) && (length <=? maxUint32) then wseq (wok [[0xDA]; be 4 (wraps 32 length)]) body
  else werr EMapTooLong.

(** encoder.go:440-479 encodeStructure; [items] are the encodings of AllFields() *)
Definition enc_structure (sig : Z) (items : list wres) : wres :=
  let length := zlen items in
  let body := wseq (wok [[wrapu 8 sig]]) (wseqs items) in
  if length <=? 15 then wseq (wok [[wrapu 8 (0xB0 + length)]]) body
  else if (15 <? length) && (length <=? maxUint8) then wseq (wok [[0xDC]; be 1 (wraps 8 length)]) body
  else if (maxUint8 <? length) && (length <=? maxUint16) then wseq (wok [[0xDD]; be 2 (wraps 16 length)]) body
  else werr EStructTooLong.

(** encoder.go:175-197: the integer cases of the type switch *)
Definition enc_kint (k : ikind) (z : Z) : wres :=
  match k with
  | KUint64 => if maxInt64 <? z then werr EIntTooBig else enc_int (wraps 64 z)
  | _ => enc_int (wraps 64 z)
  end.

(** encoder.go:167-225 encode.  The structure cases inline AllFields() (see
    [Value.structure_of]); that this is the same as the generic
    encodeStructure(AllFields()) is lemma [enc_structure_of]. *)
Fixpoint enc (v : goval) {struct v} : wres :=
  let encm := map (fun kv : str * goval => (enc_str (fst kv), enc (snd kv))) in
  match v with
  | VNil => enc_nil
  | VBool b => enc_bool b
  | VInt k z => enc_kint k z
  | VF32 b => enc_float (f32_to_f64 b)
  | VF64 b => enc_float b
  | VStr s => enc_str s
  | VSlice l => enc_slice (map enc l)
  | VTSlice l => enc_slice (map enc l)
  | VMap m => enc_map (encm m)
  | VNode id labels props =>
      enc_structure 0x4E [enc_kint KInt64 id; enc_slice (map enc_str labels); enc_map (encm props)]
  | VRel id s e ty props =>
      enc_structure 0x52 [enc_kint KInt64 id; enc_kint KInt64 s; enc_kint KInt64 e; enc_str ty; enc_map (encm props)]
  | VURel id ty props =>
      enc_structure 0x72 [enc_kint KInt64 id; enc_str ty; enc_map (encm props)]
  | VPath ns rs seq =>
      enc_structure 0x50 [enc_slice (map enc ns); enc_slice (map enc rs); enc_slice (map (enc_kint KInt) seq)]
  | VRecord fs => enc_structure 0x71 [enc_slice (map enc fs)]
  | VSuccess md => enc_structure 0x70 [enc_map (encm md)]
  | VFailure md => enc_structure 0x7F [enc_map (encm md)]
  | VIgnored => enc_structure 0x7E []
  | VInit c tok => enc_structure 0x01 [enc_str c; enc_map (encm tok)]
  | VRun s ps => enc_structure 0x10 [enc_str s; enc_map (encm ps)]
  | VPullAll => enc_structure 0x3F []
  | VDiscardAll => enc_structure 0x2F []
  | VAckFailure => enc_structure 0x0E []
  | VReset => enc_structure 0x0F []
  | VUser sig fs => enc_structure sig (map enc fs)
  | VOther => werr EUnrecognized
  end.

(** ** Chunking *)

(** encoder.go:107-130 Write(p): append to the buffer; if at least a chunk is
    buffered, write ONE chunk (the [for] loop always returns in its first
    iteration).  Returns the writes made on the underlying io.Writer and the
    buffer afterwards. *)
Definition ewrite (cs : Z) (buf p : bytes) : list bytes * bytes :=
  let b := buf ++ p in
  if cs <=? zlen b then ([be 2 cs; ztake cs b], zdrop cs b) else ([], b).

Fixpoint chunk (cs : Z) (buf : bytes) (ws : list bytes) : list bytes * bytes :=
  match ws with
  | [] => ([], buf)
  | p :: ws' =>
      let '(o1, buf1) := ewrite cs buf p in
      let '(o2, buf2) := chunk cs buf1 ws' in
      (o1 ++ o2, buf2)
  end.

(** encoder.go:133-152 flush; [be 2] wraps the length like uint16(length).
    bytes.Buffer.WriteTo makes a single Write call. *)
Definition flush (buf : bytes) : list bytes :=
  (if 0 <? zlen buf then [be 2 (zlen buf); buf] else []) ++ [[0; 0]].

(** encoder.go:155-164 Encode on a fresh encoder (every caller creates one,
    conn.go:406, 440, 617, ...): the writes on the underlying writer. *)
Definition encode (cs : Z) (v : goval) : list bytes * option eerr :=
  let '(ws, e) := enc v in
  let '(out, buf) := chunk cs [] ws in
  match e with
  | Some e => (out, Some e)
  | None => (out ++ flush buf, None)
  end.

(** encoder.go:100-104 Marshal *)
Definition marshal (v : goval) : bytes * option eerr :=
  let '(out, e) := encode maxUint16 v in (concat out, e).

(** ** Encoding onto a writer that may fail

    The oracle says, for each Write call on the underlying writer in turn,
    whether it succeeds ([None]) or fails after accepting [n] bytes
    ([Some n]); when the list is exhausted all further writes succeed. *)
Definition woracle := list (option Z).

Record sink := { wire : bytes; orc : woracle; calls : Z }.

(** One Write call on the underlying io.Writer; returns whether it succeeded. *)
Definition sput (p : bytes) (s : sink) : sink * bool :=
  match orc s with
  | [] => ({| wire := wire s ++ p; orc := []; calls := calls s + 1 |}, true)
  | None :: o => ({| wire := wire s ++ p; orc := o; calls := calls s + 1 |}, true)
  | Some n :: o => ({| wire := wire s ++ ztake (Z.max 0 n) p; orc := o; calls := calls s + 1 |}, false)
  end.

(** Several Write calls, stopping at the first failure. *)
Fixpoint sputs (ps : list bytes) (s : sink) : sink * bool :=
  match ps with
  | [] => (s, true)
  | p :: ps' => let '(s1, ok) := sput p s in if ok then sputs ps' s1 else (s1, false)
  end.

(** encoder.go:107-130 with a failing writer: error if a Write fails. *)
Definition ewrite_io (cs : Z) (buf p : bytes) (s : sink) : bytes * sink * bool :=
  let '(out, buf') := ewrite cs buf p in
  let '(s', ok) := sputs out s in (buf', s', ok).

(** The calls of e.Write made by encode: every call site returns at the first
    error (encoder.go:227-479). *)
Fixpoint chunk_io (cs : Z) (buf : bytes) (ws : list bytes) (s : sink) : bytes * sink * bool :=
  match ws with
  | [] => (buf, s, true)
  | p :: ws' =>
      let '(buf1, s1, ok) := ewrite_io cs buf p s in
      if ok then chunk_io cs buf1 ws' s1 else (buf1, s1, false)
  end.

Inductive enc_outcome := EncOk | EncRejected (e : eerr) | EncIOError.

(** encoder.go:155-164 Encode with a failing writer *)
Definition encode_io (cs : Z) (v : goval) (s : sink) : sink * enc_outcome :=
  let '(ws, e) := enc v in
  let '(buf, s1, ok) := chunk_io cs [] ws s in
  if ok then
    match e with
    | Some e => (s1, EncRejected e)
    | None => let '(s2, ok2) := sputs (flush buf) s1 in (s2, if ok2 then EncOk else EncIOError)
    end
  else (s1, EncIOError).
