(** Specification, independent of the driver's code: PackStream (the
    serialisation of Bolt v1) and Bolt's chunked framing, as published in the
    Neo4j documentation referenced by encoding/encoder.go:77-79.

    Nothing here refers to the encoder or the decoder. *)
From Coq Require Import ZArith List Bool Permutation.
From Verif Require Import GoPrims Value.
Import ListNotations.
Open Scope Z_scope.

(** ** PackStream values *)
Inductive pval :=
| PNull
| PBool (b : bool)
| PInt (z : Z)                          (* 64-bit signed *)
| PFloat (bits : Z)                     (* IEEE-754 binary64 bit pattern *)
| PStr (s : str)
| PList (l : list pval)
| PMap (m : list (str * pval))          (* entries in wire order *)
| PStruct (sig : Z) (fields : list pval).

(** ** Bytes *)
Definition is_byte (b : Z) : Prop := 0 <= b < 256.

(** Unsigned big-endian value of a byte string. *)
Fixpoint be_value (bs : bytes) : Z :=
  match bs with
  | [] => 0
  | b :: t => b * 256 ^ zlen t + be_value t
  end.

(** [bs] is the [k]-byte unsigned big-endian representation of [n]. *)
Definition BE (k : Z) (n : Z) (bs : bytes) : Prop :=
  zlen bs = k /\ Forall is_byte bs /\ be_value bs = n.

(** [bs] is the [k]-byte two's complement representation of [z]. *)
Definition TC (k : Z) (z : Z) (bs : bytes) : Prop :=
  - 2 ^ (8 * k - 1) <= z < 2 ^ (8 * k - 1) /\
  BE k (if z <? 0 then z + 2 ^ (8 * k) else z) bs.

(** ** Size headers
    A header announces a size [n] either in the low nibble of a "tiny" marker
    or in 1, 2 or 4 bytes after a marker.  Sizes are unsigned.
    [half = true] restricts the size to what also fits the signed type of
    the same width; [half = false] is the published format. *)
Definition limit (half : bool) (k : Z) : Z := if half then 2 ^ (8 * k - 1) else 2 ^ (8 * k).

Inductive Header (half : bool) (tiny : Z) (m8 m16 : Z) (m32 : option Z) (n : Z) : bytes -> Prop :=
| H_tiny : 0 <= n <= 15 -> Header half tiny m8 m16 m32 n [tiny + n]
| H_8 bs : 0 <= n < limit half 1 -> BE 1 n bs -> Header half tiny m8 m16 m32 n (m8 :: bs)
| H_16 bs : 0 <= n < limit half 2 -> BE 2 n bs -> Header half tiny m8 m16 m32 n (m16 :: bs)
| H_32 m bs : m32 = Some m -> 0 <= n < limit half 4 -> BE 4 n bs ->
              Header half tiny m8 m16 m32 n (m :: bs).

Definition StrHeader half := Header half 0x80 0xD0 0xD1 (Some 0xD2).
Definition ListHeader half := Header half 0x90 0xD4 0xD5 (Some 0xD6).
Definition MapHeader half := Header half 0xA0 0xD8 0xD9 (Some 0xDA).
Definition StructHeader := Header false 0xB0 0xDC 0xDD None.

(** ** All valid encodings of a PackStream value *)
Inductive PSg (half : bool) : pval -> bytes -> Prop :=
| PS_null : PSg half PNull [0xC0]
| PS_false : PSg half (PBool false) [0xC2]
| PS_true : PSg half (PBool true) [0xC3]
| PS_tiny_pos z : 0 <= z <= 127 -> PSg half (PInt z) [z]
| PS_tiny_neg z : -16 <= z <= -1 -> PSg half (PInt z) [z + 256]
| PS_int8 z bs : TC 1 z bs -> PSg half (PInt z) (0xC8 :: bs)
| PS_int16 z bs : TC 2 z bs -> PSg half (PInt z) (0xC9 :: bs)
| PS_int32 z bs : TC 4 z bs -> PSg half (PInt z) (0xCA :: bs)
| PS_int64 z bs : TC 8 z bs -> PSg half (PInt z) (0xCB :: bs)
| PS_float bits bs : BE 8 bits bs -> PSg half (PFloat bits) (0xC1 :: bs)
| PS_str s h : StrHeader half (zlen s) h -> PSg half (PStr s) (h ++ s)
| PS_list l h bs : ListHeader half (zlen l) h -> PSs half l bs -> PSg half (PList l) (h ++ bs)
| PS_map m h bs : MapHeader half (zlen m) h -> PSm half m bs -> PSg half (PMap m) (h ++ bs)
| PS_struct sig l h bs : is_byte sig -> StructHeader (zlen l) h -> PSs half l bs ->
                         PSg half (PStruct sig l) (h ++ sig :: bs)
with PSs (half : bool) : list pval -> bytes -> Prop :=
| PSs_nil : PSs half [] []
| PSs_cons p l b bs : PSg half p b -> PSs half l bs -> PSs half (p :: l) (b ++ bs)
with PSm (half : bool) : list (str * pval) -> bytes -> Prop :=
| PSm_nil : PSm half [] []
| PSm_cons k p m kb b bs : PSg half (PStr k) kb -> PSg half p b -> PSm half m bs ->
                           PSm half ((k, p) :: m) (kb ++ b ++ bs).

(** The published format, and its restriction to sizes below the signed limits. *)
Definition PS := PSg false.
Definition PS_half := PSg true.

(** ** What a Go value means
    Every integer kind is the integer it is, every float the binary64 of the
    same value, every slice a list, every structure its signature byte and
    fields. [VOther] has no meaning. *)
Fixpoint denote (v : goval) : pval :=
  let dm := map (fun kv : str * goval => (fst kv, denote (snd kv))) in
  match v with
  | VNil => PNull
  | VBool b => PBool b
  | VInt _ z => PInt z
  | VF32 b => PFloat (f32_to_f64 b)
  | VF64 b => PFloat b
  | VStr s => PStr s
  | VSlice l | VTSlice l => PList (map denote l)
  | VMap m => PMap (dm m)
  | VNode id labels props => PStruct 0x4E [PInt id; PList (map PStr labels); PMap (dm props)]
  | VRel id s e ty props => PStruct 0x52 [PInt id; PInt s; PInt e; PStr ty; PMap (dm props)]
  | VURel id ty props => PStruct 0x72 [PInt id; PStr ty; PMap (dm props)]
  | VPath ns rs seq => PStruct 0x50 [PList (map denote ns); PList (map denote rs); PList (map PInt seq)]
  | VRecord fs => PStruct 0x71 [PList (map denote fs)]
  | VSuccess md => PStruct 0x70 [PMap (dm md)]
  | VFailure md => PStruct 0x7F [PMap (dm md)]
  | VIgnored => PStruct 0x7E []
  | VInit c tok => PStruct 0x01 [PStr c; PMap (dm tok)]
  | VRun s ps => PStruct 0x10 [PStr s; PMap (dm ps)]
  | VPullAll => PStruct 0x3F []
  | VDiscardAll => PStruct 0x2F []
  | VAckFailure => PStruct 0x0E []
  | VReset => PStruct 0x0F []
  | VUser sig fs => PStruct (sig mod 256) (map denote fs)
  | VOther => PNull
  end.

(** ** float32: the binary64 sent has the value of the binary32 given
    Values as integer multiples of 2^-1074. *)
Definition f64_value (b : Z) : Z :=
  let s := b / 2 ^ 63 in let e := (b / 2 ^ 52) mod 2 ^ 11 in let m := b mod 2 ^ 52 in
  (if s =? 1 then -1 else 1) * (if e =? 0 then m else (2 ^ 52 + m) * 2 ^ (e - 1)).
Definition f32_value (b : Z) : Z :=
  let s := b / 2 ^ 31 in let e := (b / 2 ^ 23) mod 2 ^ 8 in let m := b mod 2 ^ 23 in
  (if s =? 1 then -1 else 1) * (if e =? 0 then m else (2 ^ 23 + m) * 2 ^ (e - 1)) * 2 ^ 925.
Definition f64_finite (b : Z) : Prop := (b / 2 ^ 52) mod 2 ^ 11 <> 2047.
Definition f32_finite (b : Z) : Prop := (b / 2 ^ 23) mod 2 ^ 8 <> 255.

(** ** Well-typed Go values: what the Go type system guarantees about a value
    of each shape (ranges of integer kinds, bytes are bytes, map keys are
    distinct, a path holds nodes and unbound relationships). *)
Definition bytes_ok (s : str) : Prop := Forall is_byte s.

Inductive wt : goval -> Prop :=
| wt_nil : wt VNil
| wt_bool b : wt (VBool b)
| wt_int k z : krange k z = true -> wt (VInt k z)
| wt_f32 b : 0 <= b < 2 ^ 32 -> wt (VF32 b)
| wt_f64 b : 0 <= b < 2 ^ 64 -> wt (VF64 b)
| wt_str s : bytes_ok s -> wt (VStr s)
| wt_slice l : Forall wt l -> wt (VSlice l)
| wt_tslice l : Forall wt l -> wt (VTSlice l)
| wt_map m : wtm m -> wt (VMap m)
| wt_node id ls ps : krange KInt64 id = true -> Forall bytes_ok ls -> wtm ps -> wt (VNode id ls ps)
| wt_rel id s e ty ps : krange KInt64 id = true -> krange KInt64 s = true -> krange KInt64 e = true ->
    bytes_ok ty -> wtm ps -> wt (VRel id s e ty ps)
| wt_urel id ty ps : krange KInt64 id = true -> bytes_ok ty -> wtm ps -> wt (VURel id ty ps)
| wt_path ns rs seq : Forall wt ns -> Forall wt rs ->
    Forall (fun v => exists i l p, v = VNode i l p) ns ->
    Forall (fun v => exists i t p, v = VURel i t p) rs ->
    Forall (fun z => krange KInt z = true) seq -> wt (VPath ns rs seq)
| wt_record fs : Forall wt fs -> wt (VRecord fs)
| wt_success md : wtm md -> wt (VSuccess md)
| wt_failure md : wtm md -> wt (VFailure md)
| wt_ignored : wt VIgnored
| wt_init c tok : bytes_ok c -> wtm tok -> wt (VInit c tok)
| wt_run s ps : bytes_ok s -> wtm ps -> wt (VRun s ps)
| wt_pull : wt VPullAll
| wt_discard : wt VDiscardAll
| wt_ack : wt VAckFailure
| wt_reset : wt VReset
| wt_user sig fs : Forall wt fs -> wt (VUser sig fs)
| wt_other : wt VOther
with wtm : list (str * goval) -> Prop :=
| wtm_intro m : NoDup (map fst m) -> Forall (fun kv => bytes_ok (fst kv)) m ->
                Forall (fun kv => wt (snd kv)) m -> wtm m.

(** ** Values in the form in which they are received: the types documented for
    results (doc.go, README.md) and the messages a decoder knows. *)
Inductive decodable : goval -> Prop :=
| dc_nil : decodable VNil
| dc_bool b : decodable (VBool b)
| dc_int z : decodable (VInt KInt64 z)
| dc_f64 b : decodable (VF64 b)
| dc_str s : decodable (VStr s)
| dc_slice l : Forall decodable l -> decodable (VSlice l)
| dc_map m : Forall (fun kv => decodable (snd kv)) m -> decodable (VMap m)
| dc_node id ls ps : Forall (fun kv => decodable (snd kv)) ps -> decodable (VNode id ls ps)
| dc_rel id s e ty ps : Forall (fun kv => decodable (snd kv)) ps -> decodable (VRel id s e ty ps)
| dc_urel id ty ps : Forall (fun kv => decodable (snd kv)) ps -> decodable (VURel id ty ps)
| dc_path ns rs seq : Forall decodable ns -> Forall decodable rs -> decodable (VPath ns rs seq)
| dc_record fs : Forall decodable fs -> decodable (VRecord fs)
| dc_success md : Forall (fun kv => decodable (snd kv)) md -> decodable (VSuccess md)
| dc_failure md : Forall (fun kv => decodable (snd kv)) md -> decodable (VFailure md)
| dc_ignored : decodable VIgnored
| dc_pull : decodable VPullAll
| dc_discard : decodable VDiscardAll
| dc_ack : decodable VAckFailure
| dc_reset : decodable VReset.

(** The value as it is received: integers as int64, floats as float64, lists
    as []interface{}. *)
Fixpoint canon (v : goval) : goval :=
  let cm := map (fun kv : str * goval => (fst kv, canon (snd kv))) in
  match v with
  | VInt _ z => VInt KInt64 z
  | VF32 b => VF64 (f32_to_f64 b)
  | VSlice l | VTSlice l => VSlice (map canon l)
  | VMap m => VMap (cm m)
  | VNode id ls ps => VNode id ls (cm ps)
  | VRel id s e ty ps => VRel id s e ty (cm ps)
  | VURel id ty ps => VURel id ty (cm ps)
  | VPath ns rs seq => VPath (map canon ns) (map canon rs) seq
  | VRecord fs => VRecord (map canon fs)
  | VSuccess md => VSuccess (cm md)
  | VFailure md => VFailure (cm md)
  | _ => v
  end.

(** The string with which an encoding ends, if it ends with the bytes of a string. *)
Fixpoint tail_str (p : pval) : option str :=
  match p with
  | PStr s => Some s
  | PList l | PStruct _ l =>
      (fix go l := match l with [] => None | [x] => tail_str x | _ :: l' => go l' end) l
  | PMap m =>
      (fix go m := match m with [] => None | [(_, x)] => tail_str x | _ :: m' => go m' end) m
  | _ => None
  end.

(** [Sub w v]: [w] occurs in [v] (as [v] itself, an element, a map value, a
    field or property value). *)
Inductive Sub : goval -> goval -> Prop :=
| Sub_refl v : Sub v v
| Sub_slice w x l : In x l -> Sub w x -> Sub w (VSlice l)
| Sub_tslice w x l : In x l -> Sub w x -> Sub w (VTSlice l)
| Sub_map w k x m : In (k, x) m -> Sub w x -> Sub w (VMap m)
| Sub_field w x v sig fs : structure_of v = Some (sig, fs) -> In x fs -> Sub w x -> Sub w v.

(** ** What no PackStream message can hold *)
Definition too_long {A} (l : list A) : Prop := 2 ^ 32 <= zlen l.

(** A value that by itself cannot be represented. *)
Definition Unrepresentable (w : goval) : Prop :=
  match w with
  | VOther => True
  | VInt KUint64 z => 2 ^ 63 <= z
  | VStr s => too_long s
  | VSlice l | VTSlice l => too_long l
  | VMap m => too_long m \/ exists k v, In (k, v) m /\ too_long k
  | _ => match structure_of w with Some (_, fs) => 2 ^ 16 <= zlen fs | None => False end
  end.

(** ** What can be exchanged with a decoder that reads sizes as signed integers
    and knows the documented structures only. *)
Definition signed_size (n : Z) : Prop := 0 <= n <= 127 \/ 256 <= n <= 32767 \/ 65536 <= n < 2 ^ 31.

Definition size_ok (w : goval) : Prop :=
  match w with
  | VStr s => signed_size (zlen s)
  | VSlice l | VTSlice l => signed_size (zlen l)
  | VMap m => signed_size (zlen m) /\ forall k x, In (k, x) m -> signed_size (zlen k)
  | _ => True
  end.

Definition kind_ok (w : goval) : Prop :=
  match w with
  | VInt KUint z | VInt KUint64 z => z < 2 ^ 63
  | VOther | VUser _ _ | VInit _ _ | VRun _ _ => False
  | _ => True
  end.

Definition Transmissible (v : goval) : Prop := forall w, Sub w v -> kind_ok w /\ size_ok w.

(** Sizes that turn negative when read back as signed integers. *)
Definition bad_size (n : Z) : Prop := 128 <= n <= 255 \/ 32768 <= n <= 65535 \/ 2 ^ 31 <= n < 2 ^ 32.

(** No string in the value (nor a map key) is longer than [n] bytes. *)
Definition strings_le (n : Z) (v : goval) : Prop :=
  forall w, Sub w v -> match w with
                       | VStr s => zlen s <= n
                       | VMap m => forall k x, In (k, x) m -> zlen k <= n
                       | _ => True
                       end.

(** The same value with map entries listed in another order, at any level. *)
Inductive reorder : goval -> goval -> Prop :=
| ro_refl v : reorder v v
| ro_slice l l' : Forall2 reorder l l' -> reorder (VSlice l) (VSlice l')
| ro_tslice l l' : Forall2 reorder l l' -> reorder (VTSlice l) (VTSlice l')
| ro_map m m' : reorderm m m' -> reorder (VMap m) (VMap m')
| ro_node id ls m m' : reorderm m m' -> reorder (VNode id ls m) (VNode id ls m')
| ro_rel id s e t m m' : reorderm m m' -> reorder (VRel id s e t m) (VRel id s e t m')
| ro_urel id t m m' : reorderm m m' -> reorder (VURel id t m) (VURel id t m')
| ro_path ns ns' rs rs' q : Forall2 reorder ns ns' -> Forall2 reorder rs rs' ->
                            reorder (VPath ns rs q) (VPath ns' rs' q)
| ro_record l l' : Forall2 reorder l l' -> reorder (VRecord l) (VRecord l')
| ro_success m m' : reorderm m m' -> reorder (VSuccess m) (VSuccess m')
| ro_failure m m' : reorderm m m' -> reorder (VFailure m) (VFailure m')
| ro_init c m m' : reorderm m m' -> reorder (VInit c m) (VInit c m')
| ro_run c m m' : reorderm m m' -> reorder (VRun c m) (VRun c m')
| ro_user g l l' : Forall2 reorder l l' -> reorder (VUser g l) (VUser g l')
with reorderm : list (str * goval) -> list (str * goval) -> Prop :=
| ro_intro m m1 m' : Permutation m m1 ->
    Forall2 (fun a b => fst a = fst b /\ reorder (snd a) (snd b)) m1 m' -> reorderm m m'.

(** ** Chunked framing: a message is a sequence of non-empty chunks, each
    preceded by its 16-bit length, followed by a zero length. *)
Inductive Chunks : list bytes -> bytes -> Prop :=
| Ch_end : Chunks [] [0; 0]
| Ch_chunk c h cs wire : 0 < zlen c -> BE 2 (zlen c) h -> Chunks cs wire ->
                         Chunks (c :: cs) (h ++ c ++ wire).

(** [wire] is exactly the framing of the message [msg]. *)
Definition Frame (msg wire : bytes) : Prop := exists cs, Chunks cs wire /\ concat cs = msg.

(** A receiver that has got the bytes [wire] reassembles the message [msg]
    and is left with [rest]. *)
Definition Receives (wire msg rest : bytes) : Prop := exists w, wire = w ++ rest /\ Frame msg w.
