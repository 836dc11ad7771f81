(** Go primitives used by the codec: bytes, fixed-width conversions and
    [encoding/binary] in big-endian order.

    A Go [byte] is a [Z] with [0 <= b < 256]; [len] is computed in [Z].
    Go's [int] and [uint] are taken to be 64 bits wide (amd64/arm64). *)
From Coq Require Import ZArith List Bool.
Import ListNotations.
Open Scope Z_scope.

Definition bytes := list Z.
Definition str := bytes.                       (* a Go string is a byte string *)

(** [len(x)] of a Go slice, string or map. *)
Definition zlen {A} (l : list A) : Z := Z.of_nat (length l).

(** Conversion to an unsigned [w]-bit integer: [uint16(x)], [byte(x)], ... *)
Definition wrapu (w z : Z) : Z := z mod 2 ^ w.

(** Conversion to a signed [w]-bit integer: [int8(x)], [int16(x)], [int64(x)], ... *)
Definition wraps (w z : Z) : Z := (z + 2 ^ (w - 1)) mod 2 ^ w - 2 ^ (w - 1).

(** [binary.Write(w, binary.BigEndian, x)] for an [n]-byte integer type: the
    low [n] bytes of the two's complement of [x], most significant first. *)
Fixpoint be (n : nat) (z : Z) : bytes :=
  match n with
  | O => []
  | S k => (z / 256 ^ Z.of_nat k) mod 256 :: be k z
  end.

(** [binary.BigEndian.UintN]: the unsigned value of big-endian bytes. *)
Definition ube (bs : bytes) : Z := fold_left (fun acc b => acc * 256 + b) bs 0.

(** Reading a signed [n]-byte integer with [binary.Read]. *)
Definition sbe (bs : bytes) : Z := wraps (8 * zlen bs) (ube bs).

(** [s[:n]] / [s[n:]] with [n] clamped to the length, as [bytes.Buffer.Next]
    clamps it; only used with [0 <= n]. *)
Definition ztake {A} (n : Z) (l : list A) : list A := firstn (Z.to_nat (Z.min n (zlen l))) l.
Definition zdrop {A} (n : Z) (l : list A) : list A := skipn (Z.to_nat (Z.min n (zlen l))) l.

(** Equality of Go strings. *)
Fixpoint str_eqb (a b : str) : bool :=
  match a, b with
  | [], [] => true
  | x :: a', y :: b' => (x =? y) && str_eqb a' b'
  | _, _ => false
  end.

(** Assignment [m[k] = v] and lookup [m[k]] on a Go map kept as an association
    list with one entry per key (in some iteration order). *)
Fixpoint mput {A} (k : str) (v : A) (m : list (str * A)) : list (str * A) :=
  match m with
  | [] => [(k, v)]
  | (k', v') :: m' => if str_eqb k k' then (k, v) :: m' else (k', v') :: mput k v m'
  end.

Fixpoint mget {A} (k : str) (m : list (str * A)) : option A :=
  match m with
  | [] => None
  | (k', v') :: m' => if str_eqb k k' then Some v' else mget k m'
  end.

(** Go conversion float64(x) of a float32, on bit patterns.
    Signalling NaNs become quiet, as on amd64/arm64. *)
Definition f32_to_f64 (b : Z) : Z :=
  let s := b / 2 ^ 31 in
  let e := (b / 2 ^ 23) mod 2 ^ 8 in
  let m := b mod 2 ^ 23 in
  let rest :=
    if e =? 255 then
      if m =? 0 then 2047 * 2 ^ 52
      else 2047 * 2 ^ 52 + Z.lor (2 ^ 51) (m * 2 ^ 29)
    else if e =? 0 then
      if m =? 0 then 0
      else let k := Z.log2 m in (k + 874) * 2 ^ 52 + (m - 2 ^ k) * 2 ^ (52 - k)
    else (e + 896) * 2 ^ 52 + m * 2 ^ 29 in
  s * 2 ^ 63 + rest.

