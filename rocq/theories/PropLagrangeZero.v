(** C27 for the coefficients at zero. *)
From Coq Require Import ZArith Lia Bool List Ring.
From Verif Require Import Base BaseFacts Zmod Fields ModelScalar ProofScalar ModelPoly SpecPoly ProofPoly ProofLagrange
  ModelGroup SpecGroup GroupFacts ModelCommit ProofCommit PropPoly.
From Verif Require Import Toy.
Import ListNotations.
Open Scope Z_scope.

Lemma eval_zero po : spec_eval po fzero = hd fzero po.
Proof. rewrite pev_spec. destruct po as [|c po]; cbn [pev hd]; [reflexivity|]. ring. Qed.
Lemma geval_zero {GO : Grp} (GL : GrpLaws GO) pts : spec_geval pts fzero = hd gzero pts.
Proof. rewrite gev_spec. destruct pts as [|c po]; cbn [gev hd]; [reflexivity|]. rewrite smul_zero. apply gadd_0_r. Qed.

(** C27: with the coefficients at zero the shares of a polynomial give back its
    constant coefficient, which is the shared secret, and the shares of a
    commitment its first point; duplicates and an empty list are rejected *)
Theorem C27_at_zero : forall (GO : Grp) (GL : GrpLaws GO) samples,
  (Forall int64_ok samples -> NoDup samples -> samples <> [] -> exists cs, lagrange_at_zero samples = Ok cs /\ length cs = length samples /\
     (forall po, (length po <= length samples)%nat ->
        interpolate_scalar cs (map (fun i => spec_eval po (node_x i)) samples) = Ok (hd fzero po)) /\
     (forall pts, (length pts <= length samples)%nat ->
        interpolate_point cs (map (fun i => spec_geval pts (node_x i)) samples) = Ok (hd gzero pts))) /\
  ((2 <= length samples)%nat -> ~ NoDup samples -> lagrange_at_zero samples = Err) /\
  (samples = [] -> lagrange_at_zero samples = Err).
Proof.
  intros GO GL samples. split; [|split; [apply (proj1 (C27_rejections GO))|intros ->; reflexivity]].
  intros Hf Hd Hne. unfold lagrange_at_zero.
  destruct (C27_scalar_reconstruction samples fzero [] Hf Hd Hne ltac:(cbn; lia)) as (cs & E & I). exists cs. split; [exact E|]. split.
  { destruct (Nat.eq_dec (length cs) (length samples)) as [L|L]; [exact L|].
    rewrite (proj1 (proj2 (proj2 (C27_rejections GO)))) in I by (rewrite map_length; congruence). discriminate. }
  split.
  - intros po L. destruct (C27_scalar_reconstruction samples fzero po Hf Hd Hne L) as (cs' & E' & I').
    replace cs with cs' by congruence. rewrite I', eval_zero. reflexivity.
  - intros pts L. destruct (C27_point_reconstruction GO GL samples fzero pts Hf Hd Hne L) as (cs' & E' & I').
    replace cs with cs' by congruence. rewrite I', (geval_zero GL). reflexivity.
Qed.
Print Assumptions C27_at_zero.
Example C27_ex_at_zero : Forall int64_ok [0; 3; 4] /\ NoDup [0; 3; 4] /\ (length [fone; fone : Fq] <= length [0; 3; 4])%nat /\ ~ NoDup [5; 5].
Proof.
  split; [apply C27_ex|]. split; [apply C27_ex|]. split; [cbn; lia|]. intros H. inversion H. cbn [In] in *. tauto.
Qed.
