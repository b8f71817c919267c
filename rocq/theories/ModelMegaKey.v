(** MEGa keys: mega/key.go.  A *MEGaPublicKey is modelled by its point field,
    [None] when that field is nil; a *MEGaPrivateKey likewise by its scalar. *)
From Coq Require Import ZArith Lia Bool String List.
From Verif Require Import Base Zmod Fields ModelScalar ModelSecp.
Import ListNotations.
Open Scope Z_scope.

(** mega/key.go:33-39 PublicKey.Deserialize; the key is built even around a nil
    point *)
Definition pk_deserialize (curve : Z) (b : bytes) : res (option pt) := point_deserialize curve b.
(** mega/key.go:21-24 VerifyMegaPublicKey: only the error of Deserialize *)
Definition verify_mega_public_key (curve : Z) (raw : bytes) : res unit :=
  do _ <- pk_deserialize curve raw; Ok tt.
(** mega/key.go:41-49 NewMEGaPublicKey and Serialize; a nil point panics *)
Definition pk_serialize (k : option pt) : res bytes :=
  match k with Some a => point_serialize a | None => Panic end.
(** mega/key.go:71-73 PublicKey with curve/point.go:95-98 MulByG *)
Definition sk_public (s : Fq) : option pt := Some (pt_mul s pt_gen).
(** mega/key.go:85-93 PrivateKey.Deserialize *)
Definition sk_deserialize (curve : Z) (b : bytes) : res (option Fq) := scalar_deserialize curve b.
(** mega/key.go:95-97 Serialize; a nil scalar panics *)
Definition sk_serialize (k : option Fq) : res bytes :=
  match k with Some s => Ok (scalar_serialize s) | None => Panic end.
