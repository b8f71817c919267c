(** Conversions between openings, their byte forms and secret shares. *)
From Coq Require Import ZArith Bool List.
From Verif Require Import Base Zmod Fields ModelScalar ModelXmd ModelGroup ModelCommit ModelMega ModelDealing.
Import ListNotations.
Open Scope Z_scope.

(** curve/scalar.go:139-143 EccScalarBytes: [None] is the nil interface,
    [Some b] a Secp256K1ScalarBytes (a 32-byte array, curve/k256_scalar.go:151). *)
Definition scalar_bytes := option bytes.

(** curve/k256_scalar.go:160-166 ToScalar: panics when Deserialize fails; a
    method call on a nil interface panics. *)
Definition to_scalar (b : scalar_bytes) : res Fq :=
  match b with
  | None => Panic
  | Some b => match k256_deserialize b with Ok s => Ok s | Diverge => Diverge | _ => Panic end
  end.

(** poly/commitment.go:16-30: dynamic types of CommitmentOpeningBytes *)
Inductive opening_bytes :=
| BSimple (b : scalar_bytes)            (* SimpleCommitmentOpeningBytes *)
| BSimplePtr (b : scalar_bytes)         (* *SimpleCommitmentOpeningBytes *)
| BPedersen (b c : scalar_bytes)        (* PedersenCommitmentOpeningBytes *)
| BPedersenPtr (b c : scalar_bytes)     (* *PedersenCommitmentOpeningBytes *)
| BNil.                                 (* nil interface *)

(** poly/commitment.go:94-96 and 113-115 ToCommitmentOpeningBytes; the method
    is also in the method set of the pointer types *)
Definition to_opening_bytes (o : opening) : res opening_bytes :=
  match o with
  | OSimple v | OSimplePtr v => Ok (BSimplePtr (to_scalar_bytes v))
  | OPedersen v m | OPedersenPtr v m => Ok (BPedersenPtr (to_scalar_bytes v) (to_scalar_bytes m))
  | ONil => Panic
  end.

(** poly/commitment.go:22-30 ToCommitmentOpening *)
Definition to_opening (b : opening_bytes) : res opening :=
  match b with
  | BSimple b | BSimplePtr b => do s <- to_scalar b; Ok (OSimplePtr s)
  | BPedersen b c | BPedersenPtr b c => do s <- to_scalar b; do m <- to_scalar c; Ok (OPedersenPtr s m)
  | BNil => Panic
  end.

(** dealings/secret_shares.go:39-65 From.  [SOther] stands for the two results
    that match no case of NewIDkgDealingInternal: the struct value of line 44
    and the nil share of an unmatched switch. *)
Definition secret_from (c1 c2 : opening_bytes) : res shares :=
  match c1 with
  | BSimplePtr b =>
    match c2 with
    | BNil => do s <- to_scalar b; Ok SOther
    | BPedersenPtr c d =>
      do s1 <- to_scalar b; do s2 <- to_scalar c; do s3 <- to_scalar d; Ok (STimes s1 s2 s3)
    | _ => Err
    end
  | BPedersenPtr b c =>
    match c2 with
    | BNil => do s1 <- to_scalar b; do s2 <- to_scalar c; Ok (SReshareMasked s1 s2)
    | _ => Err
    end
  | _ => Ok SOther
  end.
