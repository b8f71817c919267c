(** Serialize and Deserialize of polynomial commitments, on bytes:
    poly/commitment.go:132-136, 162-182, 284-305, 399-424, for points of
    secp256k1.  cbor.Marshal (external) writes a struct as a map with the field
    names as keys in the order of the fields, shortest headers, a RawMessage
    verbatim, and every pointer by its MarshalCBOR method. *)
From Coq Require Import ZArith Bool String List.
From Verif Require Import Base Zmod Fields ModelScalar ModelXmd ModelSecp ModelCommit.
Import ListNotations.
Open Scope Z_scope.

(** RFC 8949 section 3 item header with the shortest argument; arguments from
    2^32 on are not needed; behind cbor.Marshal at poly/commitment.go:171, 181, 293, 304 *)
Definition cbor_head (major n : Z) : bytes :=
  if n <? 24 then [32 * major + n]
  else if n <? 256 then [32 * major + 24; n]
  else if n <? 65536 then 32 * major + 25 :: be_bytes 2 n
  else 32 * major + 26 :: be_bytes 4 n.
(** RFC 8949 section 3.1: non-negative integers, text strings, arrays of
    already encoded items; behind cbor.Marshal at poly/commitment.go:181, 304 *)
Definition cbor_uint (n : Z) : bytes := cbor_head 0 n.
(** RFC 8949 section 3.1, field names; behind cbor.Marshal at poly/commitment.go:181, 304 *)
Definition cbor_text (s : string) : bytes := cbor_head 3 (blen (str s)) ++ str s.
(** RFC 8949 section 3.1; behind cbor.Marshal at poly/commitment.go:171, 293 *)
Definition cbor_array (items : list bytes) : bytes := cbor_head 4 (Z.of_nat (List.length items)) ++ List.concat items.

(** poly/commitment.go:132-136 polynomialCommitmentCbor; CurveType and
    PolynomialCommitmentType are integers *)
Definition cm_struct (curve ty : Z) (msg : bytes) : bytes :=
  cbor_head 5 3 ++ cbor_text "CurveType" ++ cbor_uint curve ++ cbor_text "CommitmentType" ++ cbor_uint ty
  ++ cbor_text "Message" ++ msg.

(** poly/commitment.go:162-182 and 284-305 Serialize; CurveType panics if
    there is no point *)
Definition cm_serialize (ty : Z) (pts : list pt) : res bytes :=
  match pts with
  | [] => Panic
  | _ => do items <- mapM point_marshal_cbor pts; Ok (cm_struct 1 ty (cbor_array items))
  end.

(** poly/commitment.go:42-46 commitmentOpeningCbor with poly/commitment.go:79-90
    and 98-109 Serialize: the bytes of the encoded value of ModelCommit.v; the
    array of scalars is written element by element, curve/k256_scalar.go:131-133 *)
Definition opening_bytes (o : opening) : res bytes :=
  do c <- opening_serialize o;
  Ok (cbor_head 5 3 ++ cbor_text "CurveType" ++ cbor_uint (oc_curve c) ++ cbor_text "CommitType" ++ cbor_uint (oc_type c)
      ++ cbor_text "Message" ++ cbor_array (map cbor_bytes (oc_msg c))).

Section Dec.
(** cbor.Unmarshal into the struct, into a slice of pointers (one encoded item
    for each element, [None] for null, which leaves a nil pointer) and into a
    byte slice *)
Context (dec_struct : bytes -> res (Z * Z * bytes)) (dec_array : bytes -> res (list (option bytes))) (dec_bytes : bytes -> res bytes).

(** poly/commitment.go:401-424 Deserialize: the points of the
    SimpleCommitment returned, [None] for a nil pointer.  No other
    commitment is ever returned. *)
Definition cm_deserialize (data : bytes) : res (list (option pt)) :=
  do s <- dec_struct data;
  let '(curve, ty, msg) := s in
  if ty =? ct_simple then
    if curve =? 1 then
      do items <- dec_array msg;
      mapM (fun it => match it with
                      | None => Ok None
                      | Some b => do a <- point_unmarshal_cbor dec_bytes b; Ok (Some a)
                      end) items
    else Err
  else Err.
End Dec.

(** poly/commitment.go:218-220 CurveType of the decoded commitment: points[0],
    whose method with a value receiver dereferences the pointer *)
Definition decoded_curve (l : list (option pt)) : res unit :=
  match l with Some _ :: _ => Ok tt | _ => Panic end.
