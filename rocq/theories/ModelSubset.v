(** The random subsets of signature shares in testutils/protocol_test.go. *)
From Coq Require Import ZArith List.
From Verif Require Import Base Zmod Fields ModelXmd ModelRo ModelGroup ModelMega ModelDealing ModelSign ModelProtocol.
Import ListNotations.
Open Scope Z_scope.

Section Subset.
Context {X : Oracles} {GO : Grp}.
(** testutils/test_utils.go:83-88 RandomSeed: always the same seed *)
Definition random_seed : res bytes := do r <- seed_from_rng (mkrng (repeat 0 32) 0); Ok (fst r).
(** testutils/protocol_test.go:114-121: the loop, which goes on while the number
    of different entries drawn is not the wanted one; btree.Map is a list in
    ascending order of the keys *)
Fixpoint subset_loop {A} (fuel : nat) (shares acc : list (Z * A)) (include : Z) (rn : rng) : res (list (Z * A)) :=
  if Z.of_nat (List.length acc) =? include then Ok acc
  else match fuel, shares with
       | _, [] => Panic
       | O, _ => Diverge
       | S fuel, _ =>
         let '(u, rn) := rng_uint32 rn in
         do e <- nth_or_panic shares (Z.to_nat (Z.rem u (Z.of_nat (List.length shares))));
         match zlookup (fst e) acc with
         | Some _ => subset_loop fuel shares acc include rn
         | None => subset_loop fuel shares (zset (fst e) (snd e) acc) include rn
         end
       end.
(** testutils/protocol_test.go:110-123 RandomSubset *)
Definition random_subset {A} (fuel : nat) (shares : list (Z * A)) (include : Z) : res (list (Z * A)) :=
  do s <- random_seed;
  do rn <- seed_rng s;
  subset_loop fuel shares [] include rn.
End Subset.
