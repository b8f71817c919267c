(** Coordinate field elements, point encodings and points of secp256k1:
    curve/k256_fe.go, curve/encode.go, curve/point.go, curve/k256_point.go. *)
From Coq Require Import ZArith Lia Bool String List.
From Verif Require Import Base Zmod Fields ModelScalar.
Import ListNotations.
Open Scope Z_scope.

(** ** kryptology contracts (external) *)

(** A native.EllipticPoint is modelled by the affine point its projective
    coordinates denote: [None] for Z = 0, [Some (x, y)] otherwise.  The
    coordinates need not satisfy the curve equation (fromUncompressed); the field at curve/k256_point.go:20 *)
Definition pt := option (Fp * Fp).

(** fp.K256FpNew().SetBigInt: reduces modulo p; called at curve/k256_point.go:48, 50, 59 and curve/k256_fe.go:33, 58 *)
Definition fp_of_big (z : Z) : Fp := of_Z p z.
(** native.Field.Sqrt: exponentiation by (p+1)/4 and whether it is a root; called at curve/k256_point.go:67 and curve/k256_fe.go:146 *)
Definition fp_sqrt (a : Fp) : Fp * bool :=
  let r := fpow a ((p + 1) / 4) in (r, feqb (fmul r r) a).
(** k256 Arithmetic.RhsEq: x^3 + 7; called at curve/k256_point.go:64 *)
Definition rhs (x : Fp) : Fp := fadd (fmul (fmul x x) x) (of_Z p 7).
(** EllipticPoint.Neg; inside Sub at curve/k256_point.go:112 *)
Definition pt_neg (a : pt) : pt := match a with None => None | Some (x, y) => Some (x, fneg y) end.
(** EllipticPoint.Add and Double on curve points: the chord-and-tangent law.
    Nothing is claimed about the library's result for points off the curve; called at curve/k256_point.go:105, 118 *)
Definition pt_add (a b : pt) : pt :=
  match a, b with
  | None, _ => b
  | _, None => a
  | Some (x1, y1), Some (x2, y2) =>
    if feqb x1 x2 then
      if feqb y1 y2 && negb (feqb y1 fzero) then
        let l := fdiv (fmul (of_Z p 3) (fmul x1 x1)) (fmul (of_Z p 2) y1) in
        let x3 := fsub (fmul l l) (fmul (of_Z p 2) x1) in
        Some (x3, fsub (fmul l (fsub x1 x3)) y1)
      else None
    else
      let l := fdiv (fsub y2 y1) (fsub x2 x1) in
      let x3 := fsub (fsub (fmul l l) x1) x2 in
      Some (x3, fsub (fmul l (fsub x1 x3)) y1)
  end.
(** EllipticPoint.Mul: the scalar's canonical value many copies; behind curve/k256_point.go:128-133 ScalarMul *)
Fixpoint pt_mul_pos (n : positive) (a : pt) : pt :=
  match n with
  | xH => a
  | xO n => let r := pt_mul_pos n a in pt_add r r
  | xI n => let r := pt_mul_pos n a in pt_add a (pt_add r r)
  end.
(** curve/k256_point.go:128-133 ScalarMul *)
Definition pt_mul (s : Fq) (a : pt) : pt :=
  match fv s with Zpos n => pt_mul_pos n a | _ => None end.
(** EllipticPoint.Equal; called at curve/k256_point.go:171 *)
Definition pt_eqb (a b : pt) : bool :=
  match a, b with
  | None, None => true
  | Some (x1, y1), Some (x2, y2) => feqb x1 x2 && feqb y1 y2
  | _, _ => false
  end.
(** EllipticPoint.ToAffine, GetX, GetY: (0, 0) for the point at infinity; called at curve/k256_point.go:154-155 *)
Definition pt_x (a : pt) : Fp := match a with Some (x, _) => x | None => fzero end.
(** GetY, called at curve/k256_point.go:154, 156 *)
Definition pt_y (a : pt) : Fp := match a with Some (_, y) => y | None => fzero end.
(** EllipticPoint.Generator; called at curve/k256_point.go:28 *)
Definition pt_gen : pt :=
  Some (of_Z p 0x79BE667EF9DCBBAC55A06295CE870B07029BFCDB2DCE28D959F2815B16F81798,
        of_Z p 0x483ADA7726A3C4655DA4FBFC0E1108A8FD17B448A68554199C47D08FFB10D4B8).

(** ** curve/k256_fe.go *)

(** curve/k256_fe.go:166-174 AsBytes: big-endian, left-padded to 32 bytes *)
Definition fe_as_bytes (a : Fp) : bytes := be_bytes 32 (fv a).
(** curve/k256_fe.go:35-45 FromBytes *)
Definition fe_from_bytes (b : bytes) : res Fp := set_bytes p (copy_into 32 (reverse_bytes b)).
(** curve/k256_fe.go:47-54 FromBytesWide: the copy drops the leading bytes of
    an input longer than 64 *)
Definition fe_from_bytes_wide (b : bytes) : Fp := set_bytes_wide p (copy_into 64 (reverse_bytes b)).
(** curve/k256_fe.go:176-179 Sign: the last byte of the reversed little-endian
    bytes, i.e. the lowest one, masked with 1 *)
Definition fe_sign (a : Fp) : Z := Z.land (nth 31 (reverse_bytes (field_bytes a)) 0) 1.
(** curve/k256_fe.go:145-153 Sqrt: (zero, 0) for a non-residue *)
Definition fe_sqrt (a : Fp) : Fp * bool :=
  let '(r, ok) := fp_sqrt a in if ok then (r, true) else (fzero, false).
(** curve/k256_fe.go:155-160 Progenitor: a^((p-3)/4) *)
Definition fe_progenitor (a : Fp) : Fp := fpow a ((p - 3) / 4).

(** ** curve/encode.go *)

(** curve/encode.go:29-41 MessageLen for field size 32 *)
Definition message_len (t : Z) : Z :=
  if (t =? 2) || (t =? 3) then 33
  else if t =? 4 then 65
  else if t =? 5 then 33
  else 1.
(** curve/encode.go:42-47 CompressY *)
Definition compress_y (y : bytes) : Z := if Z.land (last y 0) 1 =? 1 then 3 else 2.

(** Go slice expression b[lo:hi] on a slice whose capacity is its length; as at curve/encode.go:183 *)
Definition slice (b : bytes) (lo hi : Z) : res bytes :=
  if (0 <=? lo) && (lo <=? hi) && (hi <=? blen b)
  then Ok (firstn (Z.to_nat (hi - lo)) (skipn (Z.to_nat lo) b)) else Panic.

(** curve/encode.go:122-131 FromBytes; the EncodePoint32 is its byte slice *)
Definition encode_from_bytes (input : bytes) : res bytes :=
  match input with
  | [] => Panic                                  (* input[0] *)
  | t :: _ => if blen input =? message_len t then Ok input else Err
  end.
(** curve/encode.go:146-158 FromAffineCoordinates: always 65 bytes *)
Definition from_affine_coordinates (x y : bytes) (compress : bool) : bytes :=
  (if compress then compress_y y else 4) :: copy_into 32 x ++ copy_into 32 y.
(** curve/encode.go:160-164 Identity: 32 bytes *)
Definition encode_identity : bytes := repeat 0 32.
(** curve/encode.go:178-184 Len and AsBytes; 259-261 Tag *)
Definition encode_len (e : bytes) : Z := message_len (nth 0 e 0).
(** curve/encode.go:182-184 AsBytes *)
Definition encode_as_bytes (e : bytes) : res bytes := slice e 0 (encode_len e).

(** curve/encode.go:49-99: dynamic types of Coordinates; Identity is a value,
    the others are pointers *)
Inductive coordinates :=
| CoIdentity
| CoCompressed (x : bytes) (y_is_odd : bool)
| CoCompact (x : bytes)
| CoUncompressed (x y : bytes).
(** curve/encode.go:211-231 Coordinates *)
Definition encode_coordinates (e : bytes) : res coordinates :=
  let t := nth 0 e 0 in
  if t =? 0 then Ok CoIdentity
  else
    do x <- slice e 1 33;
    do y <- slice e 33 (blen e);
    if (t =? 2) || (t =? 3) then Ok (CoCompressed x (Z.land t 1 =? 1))
    else if t =? 5 then Ok (CoCompact x)
    else Ok (CoUncompressed x y).

(** ** curve/k256_point.go *)

(** curve/k256_point.go:47-57 fromUncompressed: no check of the curve equation *)
Definition from_uncompressed (x y : bytes) : pt := Some (fp_of_big (be_val x), fp_of_big (be_val y)).
(** curve/k256_point.go:58-79 decompress: the identity when x has no point *)
Definition decompress (xb : bytes) (sign : Z) : pt :=
  let x := fp_of_big (be_val xb) in
  let '(y, was_qr) := fp_sqrt (rhs x) in
  if was_qr then
    let sig_y := Z.land (nth 0 (field_bytes y) 0) 1 in
    Some (x, if negb (sig_y =? sign) then fneg y else y)
  else None.
(** curve/k256_point.go:80-97 fromEncodedPoint.  Coordinates returns
    IdentityCoordinates by value, so the pointer case never matches and the
    result is a nil point with a nil error: [Ok None]. *)
Definition from_encoded_point (e : bytes) : res (option pt) :=
  do c <- encode_coordinates e;
  match c with
  | CoIdentity => Ok None
  | CoCompact x => Ok (Some (decompress x 0))
  | CoCompressed x odd => Ok (Some (decompress x (if odd then 1 else 0)))
  | CoUncompressed x y => Ok (Some (from_uncompressed x y))
  end.
(** curve/k256_point.go:39-45 Deserialize *)
Definition k256_point_deserialize (b : bytes) : res (option pt) :=
  do e <- encode_from_bytes b; from_encoded_point e.

(** curve/k256_point.go:153-165 encodePoint; copy(result[0:Len], ...) slices a
    33-byte array *)
Definition encode_point (a : pt) (compress : bool) : res bytes :=
  let e := match a with
           | None => encode_identity
           | Some _ => from_affine_coordinates (fe_as_bytes (pt_x a)) (fe_as_bytes (pt_y a)) compress
           end in
  do _ <- slice (repeat 0 33) 0 (encode_len e);
  do b <- encode_as_bytes e;
  Ok (b ++ skipn (List.length b) (repeat 0 33)).
(** curve/k256_point.go:166-168 Serialize and 186-188 SerializeUncompressed *)
Definition point_serialize (a : pt) : res bytes := encode_point a true.
(** curve/k256_point.go:186-188 SerializeUncompressed *)
Definition point_serialize_uncompressed (a : pt) : res bytes := encode_point a false.
(** curve/k256_point.go:179-184 SerializeTagged: copy into bytes[1:34] *)
Definition point_serialize_tagged (a : pt) : res bytes :=
  do b <- point_serialize a; Ok (1 :: copy_into 33 b).

(** ** curve/point.go *)

(** curve/types.go:50-52 PointBytes, 29-39 FieldBytes *)
Definition point_bytes (curve : Z) : Z := 1 + ((if curve =? 1 then 256 else 0) + 7) / 8.
(** curve/point.go:126-132 DeserializeAnyFormat; [Ok None] stands for a nil
    result (nil interface, or an interface holding a nil pointer) *)
Definition point_deserialize_any (curve : Z) (b : bytes) : res (option pt) :=
  if curve =? 1 then k256_point_deserialize b else Ok None.
(** curve/point.go:106-125 Deserialize *)
Definition point_deserialize (curve : Z) (b : bytes) : res (option pt) :=
  if negb (blen b =? point_bytes curve) then Err
  else if forallb (fun x => x =? 0) b then Ok (if curve =? 1 then Some None else None)
  else if negb (nth 0 b 0 =? 2) && negb (nth 0 b 0 =? 3) then Err
  else point_deserialize_any curve b.
(** curve/point.go:100-105 DeserializeTagged: bytes[:] still has the tag *)
Definition point_deserialize_tagged (b : bytes) : res (option pt) :=
  match b with [] => Err | t :: _ => point_deserialize t b end.
(** curve/point.go:67-78 FromFieldElems *)
Definition from_field_elems (x y : Fp) : res (option pt) :=
  point_deserialize_any 1 ([4] ++ fe_as_bytes x ++ fe_as_bytes y).
(** curve/point.go:51-62 GeneratorH: panics if decoding fails *)
Definition generator_h : res (option pt) :=
  match point_deserialize 1 (be_bytes 33 0x037bdcfc024cf697a41fd3cda2436c843af5669e50042be3314a532d5b70572f59) with
  | Err => Panic | r => r
  end.

(** ** CBOR: curve/k256_point.go:202-217, curve/k256_scalar.go:131-147 *)

(** cbor.Marshal of a byte slice (external, RFC 8949 section 3.1): major type
    2 with the shortest length header; lengths from 2^32 on are not needed; called at curve/k256_point.go:203 and curve/k256_scalar.go:132 *)
Definition cbor_bytes (b : bytes) : bytes :=
  let n := blen b in
  (if n <? 24 then [64 + n]
   else if n <? 256 then [88; n]
   else if n <? 65536 then 89 :: be_bytes 2 n
   else 90 :: be_bytes 4 n) ++ b.
(** the matching decoder for definite-length byte strings; what
    cbor.Unmarshal does with other items is left open: the theorems about
    UnmarshalCBOR hold for every decoder [dec]; called at curve/k256_point.go:208 and curve/k256_scalar.go:137 *)
Definition cbor_bytes_dec (d : bytes) : res bytes :=
  match d with
  | h :: r =>
    if (64 <=? h) && (h <? 88) then if blen r =? h - 64 then Ok r else Err
    else if h =? 88 then
      match r with n :: r => if blen r =? n then Ok r else Err | [] => Err end
    else if h =? 89 then
      if (2 <=? blen r) && (blen (skipn 2 r) =? be_val (firstn 2 r)) then Ok (skipn 2 r) else Err
    else if h =? 90 then
      if (4 <=? blen r) && (blen (skipn 4 r) =? be_val (firstn 4 r)) then Ok (skipn 4 r) else Err
    else Err
  | [] => Err
  end.

Section Cbor.
(** cbor.Unmarshal into a []byte *)
Context (dec : bytes -> res bytes).
(** curve/k256_point.go:202-204 MarshalCBOR *)
Definition point_marshal_cbor (a : pt) : res bytes := do b <- point_serialize_tagged a; Ok (cbor_bytes b).
(** curve/k256_point.go:206-217 UnmarshalCBOR: bytes[1:] panics on an empty
    slice, tmp.point on a nil tmp *)
Definition point_unmarshal_cbor (d : bytes) : res pt :=
  do b <- dec d;
  match b with
  | [] => Panic
  | _ :: b =>
    do r <- k256_point_deserialize b;
    match r with Some a => Ok a | None => Panic end
  end.
(** curve/k256_scalar.go:131-133 MarshalCBOR *)
Definition scalar_marshal_cbor (s : Fq) : bytes := cbor_bytes (scalar_serialize_tagged s).
(** curve/k256_scalar.go:135-146 UnmarshalCBOR *)
Definition scalar_unmarshal_cbor (d : bytes) : res Fq :=
  do b <- dec d;
  match b with
  | [] => Panic
  | _ :: b => k256_deserialize b
  end.
End Cbor.
