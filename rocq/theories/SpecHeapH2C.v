(** Memory specification for field elements. *)
From Coq Require Import ZArith List Arith.
From Verif Require Import Base Zmod Fields ModelScalar ModelXmd ModelGroup ModelH2C ModelHeap SpecHeap.
Import ListNotations.

Section SpecHeapH2C.
Context {X : Oracles} {GO : Grp}.
(** a field element in memory, and one in a new cell *)
Definition field_at (h : heap) (p : ptr) (v : Fp) : Prop := nth_error h p = Some (VF v).
Definition new_field (h h' : heap) (p : ptr) (v : Fp) : Prop := field_at h' p v /\ fresh h p.
(** the global constants of the isogeny have their initial values *)
Definition constants_at (h : heap) (kc : nat -> ptr) : Prop :=
  Forall2 (fun i v => field_at h (kc i) v) (seq 0 13)
    [k256c0; k256c1; k256c2; k256c3; k256c4; k256c5; k256c6; k256c7; k256c8; k256c9; k256c10; k256c11; k256c12].
End SpecHeapH2C.
