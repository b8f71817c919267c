(** Scalars: curve/scalar.go and curve/k256_scalar.go. *)
From Coq Require Import ZArith Lia List Bool String.
From Verif Require Import Base Zmod Fields.
Import ListNotations.
Open Scope Z_scope.

(** kryptology [native.Field.SetBytes] (external): little-endian 32 bytes,
    rejects values not below the modulus; called at curve/k256_scalar.go:25 and curve/k256_fe.go:38 *)
Definition set_bytes (m : Z) (le : bytes) : res (fe m) :=
  if le_val le <? m then Ok (of_Z m (le_val le)) else Err.

(** kryptology [native.Field.SetBytesWide] (external): little-endian 64 bytes,
    reduced modulo the modulus; called at curve/k256_scalar.go:56 and curve/k256_fe.go:50 *)
Definition set_bytes_wide (m : Z) (le : bytes) : fe m := of_Z m (le_val le).

(** kryptology [native.Field.Bytes] (external): 32 bytes little-endian; called at curve/k256_scalar.go:112 *)
Definition field_bytes {m : Z} (a : fe m) : bytes := le_bytes 32 (fv a).

(** curve/k256_scalar.go:22-32 EccK256Scalar.Deserialize.
    [copy] into a 32-byte array keeps the low-order 32 bytes of a longer input
    and zero-extends a shorter one. *)
Definition k256_deserialize (b : bytes) : res Fq :=
  set_bytes q (copy_into 32 (reverse_bytes b)).

(** curve/k256_scalar.go:51-58 EccK256Scalar.FromWideBytes.  The slice
    expression r[:len(bytes)] of a [64]byte panics above 64. *)
Definition k256_from_wide_bytes (b : bytes) : res Fq :=
  if 64 <? blen b then Panic
  else Ok (set_bytes_wide q (copy_into 64 (reverse_bytes b))).

(** curve/k256_scalar.go:111-114 Serialize *)
Definition scalar_serialize (s : Fq) : bytes := reverse_bytes (field_bytes s).

(** curve/k256_scalar.go:116-121 SerializeTagged (CurveType is K256 = 1) *)
Definition scalar_serialize_tagged (s : Fq) : bytes := 1 :: scalar_serialize s.

(** curve/scalar.go:46-58 DeserializeTagged.  [Ok None] is the (nil, nil)
    result for a tag that is not K256.  The whole slice, tag included, is
    passed on (bytes[0:]). *)
Definition scalar_deserialize_tagged (b : bytes) : res (option Fq) :=
  match b with
  | [] => Err
  | t :: _ => if t =? 1 then (do s <- k256_deserialize b; Ok (Some s)) else Ok None
  end.

(** curve/scalar.go:60-71 Deserialize; [Ok None] is (nil, nil) for an unknown
    curve number. *)
Definition scalar_deserialize (curve : Z) (b : bytes) : res (option Fq) :=
  match b with
  | [] => Err
  | _ => if curve =? 1 then (do s <- k256_deserialize b; Ok (Some s)) else Ok None
  end.

(** curve/scalar.go:73-81 FromBytesWide for K256 (its error is always nil) *)
Definition scalar_from_bytes_wide (b : bytes) : res Fq := k256_from_wide_bytes b.

(** curve/scalar.go:116-124 ToScalarBytes: the local array is filled but the
    returned interface variable is never assigned: always nil. *)
Definition to_scalar_bytes (s : Fq) : option bytes := None.

(** curve/k256_scalar.go:45-49 FromUint64 (argument already a uint64) *)
Definition scalar_from_uint64 (n : Z) : Fq := of_Z q n.

(** curve/scalar.go:135-137 FromNodeIndex: uint64(index)+1 wraps modulo 2^64 *)
Definition from_node_index (i : Z) : Fq := scalar_from_uint64 (u64 (u64 i + 1)).

(** curve/k256_scalar.go:127-130 IsHigh, with kryptology's [Cmp] comparing the
    canonical values of the two field elements (documented contract). *)
Definition order_half : Fq := of_Z q (q / 2).
(** curve/k256_scalar.go:127-130 IsHigh *)
Definition is_high (s : Fq) : bool := fv order_half <? fv s.
