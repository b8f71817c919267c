(** Lagrange coefficients that examples use, without running an inversion:
    coqchk evaluates one slowly. *)
From Coq Require Import ZArith Lia Bool List Ring Field.
From Verif Require Import Base BaseFacts Zmod Fields ModelScalar ProofScalar ModelXmd SpecPoly ModelPoly ProofPoly ProofLagrange.
Import ListNotations.
Open Scope Z_scope.

Definition ex_half : Fq := of_Z q ((q + 1) / 2).
Lemma finv_by (a b : Fq) : fmul a b = fone -> finv a = b.
Proof.
  intros H. assert (Ha : a <> fzero) by (intros ->; replace (fmul fzero b) with (fzero : Fq) in H by ring; exact (fone_neq_fzero q_prime (eq_sym H))).
  transitivity (fmul (finv a) (fmul a b)); [rewrite H; ring|]. transitivity (fmul (fmul (finv a) a) b); [ring|]. rewrite (finv_l q_prime) by exact Ha. ring.
Qed.
Lemma ex_lagrange (k : Z) (c d : Fq) :
  fmul (denominator (from_node_index 0) [from_node_index 0; from_node_index k]) c = fone ->
  fmul (denominator (from_node_index k) [from_node_index 0; from_node_index k]) d = fone ->
  feqb c fzero = false -> feqb d fzero = false -> k <> 0 ->
  lagrange_at_zero [0; k] = Ok [fmul (fmul fone (fmul fone (fsub (from_node_index k) fzero))) c; fmul (fmul (fmul fone (fsub (from_node_index 0) fzero)) fone) d].
Proof.
  intros Hc Hd Nc Nd Hk. unfold lagrange_at_zero, lagrange_at_value. cbn [check_dups existsb map prefix_prods suffix_prods snd combine mapM].
  rewrite (proj2 (Z.eqb_neq 0 k)) by congruence. cbn [orb negb andb]. rewrite (finv_by _ _ Hc), (finv_by _ _ Hd), Nc, Nd. reflexivity.
Qed.
Lemma ex_two (a b c d : Fq) : a = c -> b = d -> Ok [a; b] = Ok [c; d].
Proof. intros -> ->. reflexivity. Qed.
Lemma ex_lagrange_01 : lagrange_at_zero [0; 1] = Ok [of_Z q 2; of_Z q (-1)].
Proof.
  rewrite (ex_lagrange 1 fone (of_Z q (-1))); [|apply fe_eq; vm_compute; reflexivity|apply fe_eq; vm_compute; reflexivity|vm_compute; reflexivity|vm_compute; reflexivity|discriminate].
  apply ex_two; apply fe_eq; vm_compute; reflexivity.
Qed.
Lemma ex_lagrange_02 : lagrange_at_zero [0; 2] = Ok [fmul (of_Z q 3) ex_half; fneg ex_half].
Proof.
  rewrite (ex_lagrange 2 ex_half (fneg ex_half)); [|apply fe_eq; vm_compute; reflexivity|apply fe_eq; vm_compute; reflexivity|vm_compute; reflexivity|vm_compute; reflexivity|discriminate].
  apply ex_two; apply fe_eq; vm_compute; reflexivity.
Qed.
