(** Textbook ECDSA, independent of the code.
    (No code of /repo is modelled here.) *)
From Coq Require Import ZArith List.
From Verif Require Import Base Zmod Fields ModelScalar ModelXmd ModelRo SpecPoly ModelPoly ModelGroup SpecGroup ModelCommit ModelDealing ModelKey ModelSign.
Import ListNotations.
Open Scope Z_scope.

(** the integer ECDSA signs: the leftmost 256 bits of the hash *)
Definition bits2int (h : bytes) : Z := be_val (firstn 32 h).

Section Spec.
Context {GO : Grp}.
(** SEC 1, 4.1.4 (the scalars are below the order by their type) *)
Definition spec_ecdsa (pk : G) (z : Z) (r s : Fq) : Prop :=
  r <> fzero /\ s <> fzero /\
  exists w R, fmul w s = fone /\
    R = gadd (smul (fmul (of_Z q z) w) genG) (smul (fmul r w) pk) /\ R <> gzero /\ fv (affx R) mod q = fv r.

Context {X : Oracles}.
(** honest shares: the signers hold evaluations, at their indices, of
    polynomials [L], [KL] and [XL] (masked values; the masks are arbitrary) *)
Definition honest_shares (pa : path) (h rnd : bytes) (key presig : transcript) (L KL XL : list Fq)
  (shares : list (Z * sig_share)) : Prop :=
  forall i s, In (i, s) shares -> exists m1 m2 m3,
    new_share pa h rnd key presig
      (OPedersen (spec_eval L (node_x i)) m1)
      (OPedersen (spec_eval KL (node_x i)) m2)
      (OPedersen (spec_eval XL (node_x i)) m3) = Ok s.
(** the sharings belong together: key x, nonce kappa, mask lambda, and the
    products kappa * lambda and x * lambda *)
Definition consistent (key presig : transcript) (L KL XL : list Fq) (x kappa lambda : Fq) : Prop :=
  tr_constant_term key = Ok (smul x genG) /\
  (exists l, tr_commitment presig = CInterp (CSimple (smul kappa genG :: l))) /\
  spec_eval L fzero = lambda /\ spec_eval KL fzero = fmul kappa lambda /\ spec_eval XL fzero = fmul x lambda.
End Spec.
