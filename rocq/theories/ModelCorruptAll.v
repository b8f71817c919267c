(** The remaining helpers of testutils/test_utils.go, seed/seed.go, poly/lagrange.go
    and curve/types.go. *)
From Coq Require Import ZArith String List.
From Verif Require Import Base Zmod Fields ModelScalar ModelXmd ModelRo ModelPoly ModelGroup ModelCommit ModelZk ModelMega ModelDealing ModelProtocol.
Import ListNotations.
Open Scope Z_scope.

Section CorruptAll.
Context {X : Oracles} {GO : Grp}.
(** testutils/test_utils.go:60-63: the numbers 0, 1, ... below Recipients() *)
Definition all_recipients (d : dealing) : res (list Z) :=
  do n <- m_recipients (d_ct d); Ok (map Z.of_nat (seq 0 (Z.to_nat n))).
(** testutils/test_utils.go:59-66 CorruptDealingForAllRecipients *)
Definition corrupt_for_all (d : dealing) (seed : bytes) : res dealing :=
  do all <- all_recipients d; corrupt_dealing d all seed.
(** seed/seed.go:29-33 FromRandomness with the stream that rand/chacha20.go:39-41
    XORKeyStream implements; kyber's random.Bytes(b, r) is r.XORKeyStream(b, b) *)
Definition from_randomness_dst : bytes := str "ic-crypto-seed-from-randomness".
(** seed/seed.go:29-33 FromRandomness *)
Definition seed_from_randomness (r : rng) : res (bytes * rng) :=
  let '(o, r) := fill_uint8 r (repeat 0 32) in
  do s <- new_seed o from_randomness_dst; Ok (s, r).
(** poly/lagrange.go:19-26 New, 40-42 Coefficients: the same list again *)
Definition lagrange_new (l : list Fq) : res (list Fq) := match l with [] => Err | _ => Ok l end.
(** poly/lagrange.go:28-38 Equal; the curve types of scalars are the same *)
Fixpoint equal_loop (l other : list Fq) : Z :=
  match l, other with
  | a :: l, b :: other => if feqb a b then equal_loop l other else 0
  | _, _ => 1
  end.
(** poly/lagrange.go:28-38 Equal *)
Definition lagrange_equal (l other : list Fq) : Z :=
  if Nat.eqb (List.length l) (List.length other) then equal_loop l other else 0.
End CorruptAll.
