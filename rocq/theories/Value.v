(** Go values that can reach the codec as [interface{}], and the structures of
    [structures/graph] and [structures/messages]. *)
From Coq Require Import ZArith List Bool.
From Verif Require Import GoPrims.
Import ListNotations.
Open Scope Z_scope.

(** The ten Go integer kinds of the type switch in encoding/encoder.go:175-197. *)
Inductive ikind := KInt | KInt8 | KInt16 | KInt32 | KInt64
                 | KUint | KUint8 | KUint16 | KUint32 | KUint64.

(** Go values.  Simplifications:
    - a nil map/slice of the right static type is identified with the empty one
      (both encode to the same bytes, encoder.go:353-438);
    - maps are association lists in the order in which [range] happens to
      iterate; Go guarantees distinct keys (see [wt] below);
    - floats are IEEE-754 bit patterns;
    - [VTSlice] is a slice of any type other than []interface{}
      (encoder.go:211-219), its elements already boxed by [reflect];
    - [VOther] is any value whose dynamic type the encoder does not know
      (pointers, channels, named scalar types, other maps, structs ...);
    - [VUser sig fields] is a user-defined implementation of
      structures.Structure (structures/structures.go:4-7);
    - [VPath]'s node and relationship lists are lists of values, restricted to
      [VNode]/[VURel] by [wt] (graph/path.go:9-13). *)
Inductive goval :=
| VNil
| VBool (b : bool)
| VInt (k : ikind) (z : Z)
| VF32 (bits : Z)
| VF64 (bits : Z)
| VStr (s : str)
| VSlice (l : list goval)
| VTSlice (l : list goval)
| VMap (m : list (str * goval))
| VNode (id : Z) (labels : list str) (props : list (str * goval))
| VRel (id startId endId : Z) (ty : str) (props : list (str * goval))
| VURel (id : Z) (ty : str) (props : list (str * goval))
| VPath (nodes rels : list goval) (seq : list Z)
| VRecord (fields : list goval)
| VSuccess (md : list (str * goval))
| VFailure (md : list (str * goval))
| VIgnored
| VInit (client : str) (token : list (str * goval))
| VRun (stmt : str) (params : list (str * goval))
| VPullAll | VDiscardAll | VAckFailure | VReset
| VUser (sig : Z) (fields : list goval)
| VOther.

Definition vstr (s : str) : goval := VStr s.
Definition vint64 (z : Z) : goval := VInt KInt64 z.
Definition vint (z : Z) : goval := VInt KInt z.

(** [Signature()] and [AllFields()] of every structure:
    graph/node.go:15-27, relationship.go:17-25, unbound_relationship.go:15-23,
    path.go:15-35, messages/*.go.  [None] for values that are not structures. *)
Definition structure_of (v : goval) : option (Z * list goval) :=
  match v with
  | VNode id labels props => Some (0x4E, [vint64 id; VSlice (map vstr labels); VMap props])
  | VRel id s e ty props => Some (0x52, [vint64 id; vint64 s; vint64 e; VStr ty; VMap props])
  | VURel id ty props => Some (0x72, [vint64 id; VStr ty; VMap props])
  | VPath ns rs seq => Some (0x50, [VSlice ns; VSlice rs; VSlice (map vint seq)])
  | VRecord fs => Some (0x71, [VSlice fs])
  | VSuccess md => Some (0x70, [VMap md])
  | VFailure md => Some (0x7F, [VMap md])
  | VIgnored => Some (0x7E, [])
  | VInit c tok => Some (0x01, [VStr c; VMap tok])
  | VRun s ps => Some (0x10, [VStr s; VMap ps])
  | VPullAll => Some (0x3F, [])
  | VDiscardAll => Some (0x2F, [])
  | VAckFailure => Some (0x0E, [])
  | VReset => Some (0x0F, [])
  | VUser sig fs => Some (sig, fs)
  | _ => None
  end.

(** Range of each integer kind (Go specification, "Numeric types"). *)
Definition krange (k : ikind) (z : Z) : bool :=
  match k with
  | KInt | KInt64 => (- 2 ^ 63 <=? z) && (z <? 2 ^ 63)
  | KInt8 => (- 2 ^ 7 <=? z) && (z <? 2 ^ 7)
  | KInt16 => (- 2 ^ 15 <=? z) && (z <? 2 ^ 15)
  | KInt32 => (- 2 ^ 31 <=? z) && (z <? 2 ^ 31)
  | KUint | KUint64 => (0 <=? z) && (z <? 2 ^ 64)
  | KUint8 => (0 <=? z) && (z <? 2 ^ 8)
  | KUint16 => (0 <=? z) && (z <? 2 ^ 16)
  | KUint32 => (0 <=? z) && (z <? 2 ^ 32)
  end.
