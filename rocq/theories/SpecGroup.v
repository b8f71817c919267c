(** Textbook notions about points, independent of the model's functions. *)
From Coq Require Import ZArith List.
From Verif Require Import Base Zmod Fields ModelGroup SpecPoly.
Import ListNotations.
Open Scope Z_scope.

Section Spec.
Context {GO : Grp}.
Definition gsum (l : list G) : G := fold_right gadd gzero l.

(** the point polynomial: sum of x^i P_i *)
Definition spec_geval (l : list G) (x : Fq) : G :=
  gsum (map (fun i => smul (fpow x (Z.of_nat i)) (nth i l gzero)) (seq 0 (length l))).

(** evaluation abscissa of node [i] *)
Definition node_x (i : Z) : Fq := of_Z q ((i + 1) mod 2^64).

(** the points commit to the coefficients, both sequences continued with zeros *)
Definition commits (l : list G) (po : list Fq) : Prop :=
  forall i, nth i l gzero = smul (nth i po fzero) genG.
Definition commits2 (l : list G) (po mo : list Fq) : Prop :=
  forall i, nth i l gzero = gadd (smul (nth i po fzero) genG) (smul (nth i mo fzero) genH).
(** no non-zero coefficient at or above [n] *)
Definition coeffs_below (n : nat) (po : list Fq) : Prop := forall i, (n <= i)%nat -> nth i po fzero = fzero.
End Spec.
