(** Properties C57, C58. *)
From Coq Require Import ZArith Lia Bool List.
From Verif Require Import Base BaseFacts Zmod Fields ModelScalar ModelXmd ModelRo ProofRand.
From Verif Require Import Toy.
Import ListNotations.
Open Scope Z_scope.

(** C57 *)
Theorem C57_split_invariant : forall (X : Oracles) r b1 b2,
  fill_uint8 r (b1 ++ b2) =
  let '(o1, r1) := fill_uint8 r b1 in let '(o2, r2) := fill_uint8 r1 b2 in (o1 ++ o2, r2).
Proof. intros X. exact fill_split. Qed.
Theorem C57_zero_buffer_and_integers : forall (X : Oracles) r n,
  let next k := map (fun i => keystream (rng_key r) (rng_pos r + i)) (seq 0 k) in
  fill_uint8 r (repeat 0 n) = (next n, mkrng (rng_key r) (rng_pos r + n)) /\
  rng_uint32 r = (be_val (next 4%nat), mkrng (rng_key r) (rng_pos r + 4)) /\
  rng_uint64 r = (be_val (next 8%nat), mkrng (rng_key r) (rng_pos r + 8)).
Proof.
  intros X r n next.
  assert (E : forall k, ks_bytes r k = next k).
  { intros k. unfold ks_bytes, next. rewrite seq_map_add, map_map. reflexivity. }
  rewrite fill_zero, uint32_spec, uint64_spec, !E. repeat split.
Qed.
Theorem C57_xors_into_buffer : forall (X : Oracles) r buf i, (i < length buf)%nat ->
  nth i (fst (fill_uint8 r buf)) 0 = Z.lxor (nth i buf 0) (keystream (rng_key r) (rng_pos r + i)).
Proof.
  intros X r buf i H. unfold fill_uint8, ks_bytes. cbn [fst]. revert i r H.
  induction buf as [|b buf IH]; intros i r H; cbn [length] in H; [lia|].
  cbn [length seq map xor_bytes]. destruct i as [|i]; cbn [nth]; [rewrite Nat.add_0_r; reflexivity|].
  specialize (IH i (mkrng (rng_key r) (S (rng_pos r))) ltac:(lia)). cbn [rng_key rng_pos] in IH.
  rewrite IH. do 2 f_equal. lia.
Qed.
Print Assumptions C57_split_invariant.
Print Assumptions C57_zero_buffer_and_integers.
Print Assumptions C57_xors_into_buffer.

(** C58: [blocks_xor r k] is the exclusive or of the next k blocks of 32 bytes *)
Theorem C58_random_scalar : forall (X : Oracles) (HX : oracles_ok X) r,
  (exists n s, (1 <= n <= rand_fuel)%nat /\ random_scalar r = Ok (s, mkrng (rng_key r) (rng_pos r + 32 * n)) /\
     scalar_serialize s = blocks_xor r n /\ be_val (blocks_xor r n) < q /\
     forall j, (1 <= j < n)%nat -> q <= be_val (blocks_xor r j)) \/
  (random_scalar r = Diverge /\ forall j, (1 <= j <= rand_fuel)%nat -> q <= be_val (blocks_xor r j)).
Proof. intros X HX. exact (random_scalar_spec HX). Qed.
Print Assumptions C58_random_scalar.
Example C58_ex : match @random_scalar Toy.toyX (mkrng (repeat 5 32) 3) with Ok (s, r) => rng_pos r = 35%nat | _ => False end.
Proof. vm_compute. reflexivity. Qed.
