(** Polynomial commitments and their openings: poly/commitment.go, the point
    part of poly/lagrange.go, and dealings/combined_commitment.go.  The curve
    type of every point and scalar is K256, so comparisons of curve types
    succeed; reading the curve type of an empty commitment still panics. *)
From Coq Require Import ZArith Lia Bool String List.
From Verif Require Import Base Zmod Fields ModelScalar ModelXmd ModelRo ModelPoly ModelGroup.
Import ListNotations.
Open Scope Z_scope.

(** poly/commitment.go:32-40 CommitmentOpening: the dynamic types that can
    occur.  Deserialize (52-75) and ToCommitmentOpening (22-30) produce
    pointers, everything else values. *)
Inductive opening :=
| OSimple (v : Fq)              (* SimpleCommitmentOpening *)
| OPedersen (v m : Fq)          (* PedersenCommitmentOpening *)
| OSimplePtr (v : Fq)           (* *SimpleCommitmentOpening *)
| OPedersenPtr (v m : Fq)       (* *PedersenCommitmentOpening *)
| ONil.                         (* nil interface *)

(** poly/commitment.go:376-381 *)
Definition ct_simple : Z := 1.
(** poly/commitment.go:378 Pedersen *)
Definition ct_pedersen : Z := 2.

Section Commit.
Context {GO : Grp}.

(** poly/commitment.go:117-119, 253-255 and dealings/combined_commitment.go:12-26:
    dynamic types of PolynomialCommitment.  The two wrappers embed the
    interface and so forward every method. *)
Inductive commitment :=
| CSimple (pts : list G)            (* *poly.SimpleCommitment *)
| CPedersen (pts : list G)          (* *poly.PedersenCommitment *)
| CSum (c : commitment)             (* *dealings.SummationCommitment *)
| CInterp (c : commitment)          (* *dealings.InterpolationCommitment *)
| CNil.                             (* nil interface *)

(** the commitment whose method runs when called through the wrappers; dealings/combined_commitment.go:12-26, method promotion from the embedded interface *)
Fixpoint unwrap (c : commitment) : commitment :=
  match c with CSum c => unwrap c | CInterp c => unwrap c | c => c end.

(** poly/commitment.go:200-202, 323-325 Points *)
Definition c_points (c : commitment) : res (list G) :=
  match unwrap c with CSimple l | CPedersen l => Ok l | _ => Panic end.
(** poly/commitment.go:196-198, 319-321 Type *)
Definition c_type (c : commitment) : res Z :=
  match unwrap c with CSimple _ => Ok ct_simple | CPedersen _ => Ok ct_pedersen | _ => Panic end.
(** poly/commitment.go:204-206, 327-329 Len *)
Definition c_len (c : commitment) : res Z := do l <- c_points c; Ok (Z.of_nat (List.length l)).
(** poly/commitment.go:218-220, 341-343 CurveType: index panic if empty *)
Definition c_curve (c : commitment) : res unit :=
  do l <- c_points c; match l with [] => Panic | _ => Ok tt end.
(** poly/commitment.go:237-239, 360-362 ConstantTerm *)
Definition c_constant_term (c : commitment) : res G :=
  do l <- c_points c; match l with [] => Panic | P :: _ => Ok P end.

(** poly/commitment.go:121-130 evaluateAt, from the last point down *)
Definition eval_points (l : list G) (i : Z) : res G :=
  match l with
  | [] => Panic
  | _ => Ok (fold_left (fun acc pt => gadd (mul_by_node_index acc i) pt) (rev l) gzero)
  end.
(** poly/commitment.go:240-242, 363-365 EvaluateAt *)
Definition c_eval (c : commitment) (i : Z) : res G := do l <- c_points c; eval_points l i.

(** poly/commitment.go:227-235, 350-358 VerifyIs *)
Definition c_verify_is (c : commitment) (ty : Z) : res unit :=
  do _ <- c_curve c; do t <- c_type c; guard (t =? ty).

(** poly/commitment.go:244-251 and 366-374 CheckOpening: the type assertion
    on the opening panics unless it is the matching value type *)
Definition c_check_opening (c : commitment) (i : Z) (o : opening) : res bool :=
  match unwrap c, o with
  | CSimple l, OSimple v => do e <- eval_points l i; Ok (geqb e (mul_by_g v))
  | CPedersen l, OPedersen v m => do e <- eval_points l i; Ok (geqb e (pedersen v m))
  | _, _ => Panic
  end.
(** poly/commitment.go:221-226, 344-349 ReturnOpeningIfConsistent *)
Definition c_return_if_consistent (c : commitment) (i : Z) (o : opening) : res opening :=
  do b <- c_check_opening c i o; if b then Ok o else Err.

(** poly/commitment.go:142-151 simpleCommitment.Create *)
Definition simple_create (po : poly) (num : Z) : res commitment :=
  if num <? Z.of_nat (non_zero_coefficients po) then Err
  else Ok (CSimple (map (fun i => mul_by_g (coeff po i)) (seq 0 (Z.to_nat num)))).
(** poly/commitment.go:263-272 pedersenCommitment.Create *)
Definition pedersen_create (values masking : poly) (num : Z) : res commitment :=
  if (num <? Z.of_nat (non_zero_coefficients values)) || (num <? Z.of_nat (non_zero_coefficients masking)) then Err
  else Ok (CPedersen (map (fun i => pedersen (coeff values i) (coeff masking i)) (seq 0 (Z.to_nat num)))).

(** poly/commitment.go:184-194 and 307-317 StableRepresentation; the tags are
    'S' and 'P', the curve tag is 1 (K256) *)
Definition c_stable (c : commitment) : res bytes :=
  do _ <- c_curve c;
  match unwrap c with
  | CSimple l => Ok (83 :: 1 :: flat_map ser l)
  | CPedersen l => Ok (80 :: 1 :: flat_map ser l)
  | _ => Panic
  end.

(** poly/commitment.go:207-217, 330-340 Equal *)
Definition c_equal (c d : commitment) : res bool :=
  do l <- c_points c; do r <- c_points d;
  Ok ((List.length l =? List.length r)%nat && forallb (fun '(a, b) => geqb a b) (combine l r)).

(** poly/lagrange.go:48-59 InterpolatePoint *)
Definition interpolate_point (cs : list Fq) (ys : list G) : res G :=
  if negb (Nat.eqb (List.length ys) (List.length cs)) then Err
  else match cs with
       | [] => Panic
       | _ => Ok (fold_left (fun r cy => gadd r (smul (fst cy) (snd cy))) (combine cs ys) gzero)
       end.

(** dealings/transcript_operation.go:9-11 IDkgTranscriptInternal *)
Record transcript := mktranscript { tr_commitment : commitment }.
(** dealings/transcript_operation.go:13-15 *)
Definition tr_constant_term (t : transcript) : res G := c_constant_term (tr_commitment t).
(** dealings/transcript_operation.go:16-18 *)
Definition tr_eval (t : transcript) (i : Z) : res G := c_eval (tr_commitment t) i.
(** dealings/transcript_operation.go:19-23 Compare: both sides are taken from
    the receiver; bytes.Compare as -1, 0, 1 *)
Definition bytes_compare (a b : bytes) : Z :=
  if bytes_eqb a b then 0 else if bytes_ltb a b then -1 else 1.
(** dealings/transcript_operation.go:19-23 Compare *)
Definition tr_compare (t other : transcript) : res Z :=
  do l <- c_stable (tr_commitment t); do r <- c_stable (tr_commitment t); Ok (bytes_compare l r).
End Commit.

(** ** Serialised openings: poly/commitment.go:42-115.
    The CBOR encoding is kept at the level of the encoded value: curve number,
    commitment type and the array of scalar byte strings (each one
    [scalar_serialize_tagged], curve/k256_scalar.go:131-133). *)
(** poly/commitment.go:42-46 commitmentOpeningCbor and the messages of 78-110 *)
Record opening_cbor := mkocbor { oc_curve : Z; oc_type : Z; oc_msg : list bytes }.

(** poly/commitment.go:79-90 and 98-109 Serialize (value and pointer receivers
    share it).  Both write CommitType Simple. *)
Definition opening_serialize (o : opening) : res opening_cbor :=
  match o with
  | OSimple v | OSimplePtr v => Ok (mkocbor 1 ct_simple [scalar_serialize_tagged v])
  | OPedersen v m | OPedersenPtr v m =>
      Ok (mkocbor 1 ct_simple [scalar_serialize_tagged v; scalar_serialize_tagged m])
  | ONil => Panic
  end.
(** curve/k256_scalar.go:135-146 UnmarshalCBOR of one byte string *)
Definition scalar_of_cbor (b : bytes) : res Fq :=
  match b with [] => Panic | _ :: b => k256_deserialize b end.
(** the array behind the decoded pointer; [None] is the nil interface; poly/commitment.go:52-75 *)
Inductive opening_decoded := DSimple (v : option Fq) | DPedersen (v m : option Fq).
(** one element decoded into a slot that holds a zero scalar: the error of
    cbor.Unmarshal is ignored (poly/commitment.go:62, 70), which leaves zero; for
    a missing element cbor (external) sets the slot to the zero value of its type,
    the nil interface *)
Definition slot (l : list bytes) (i : nat) : res (option Fq) :=
  match nth_error l i with
  | None => Ok None
  | Some b => match scalar_of_cbor b with Ok s => Ok (Some s) | Err => Ok (Some fzero) | Panic => Panic | Diverge => Diverge end
  end.
(** poly/commitment.go:52-75 Deserialize *)
Definition opening_deserialize (c : opening_cbor) : res opening_decoded :=
  if (oc_type c =? ct_simple) && (oc_curve c =? 1) then
    (do v <- slot (oc_msg c) 0; Ok (DSimple v))
  else if (oc_type c =? ct_pedersen) && (oc_curve c =? 1) then
    (do v <- slot (oc_msg c) 0; do m <- slot (oc_msg c) 1; Ok (DPedersen v m))
  else Err.
(** the decoded value as a CommitmentOpening: a pointer to the array
    (poly/commitment.go:61-63, 69-71).  A nil element is shown as zero; the type
    switches of the callers look at the kind only. *)
Definition opening_of_decoded (d : opening_decoded) : opening :=
  let z o := match o with Some v => v | None => fzero end in
  match d with DSimple v => OSimplePtr (z v) | DPedersen v m => OPedersenPtr (z v) (z m) end.
