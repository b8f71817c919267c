(** Textbook polynomials over the scalar field, independent of the model. *)
From Coq Require Import ZArith List.
From Verif Require Import Zmod Fields.
Import ListNotations.
Open Scope Z_scope.

Definition fsum {m} (l : list (fe m)) : fe m := fold_right fadd fzero l.
Definition fprod {m} (l : list (fe m)) : fe m := fold_right fmul fone l.

(** sum of c_i x^i *)
Definition spec_eval (c : list Fq) (x : Fq) : Fq :=
  fsum (map (fun i => fmul (nth i c fzero) (fpow x (Z.of_nat i))) (seq 0 (length c))).

(** equal up to zero padding *)
Definition spec_same (a b : list Fq) : Prop := forall i, nth i a fzero = nth i b fzero.

(** the Lagrange basis value for the i-th abscissa *)
Definition spec_lagrange (v : Fq) (xs : list Fq) (i : nat) : Fq :=
  fprod (map (fun j => if Nat.eqb i j then fone
                       else fdiv (fsub v (nth j xs fzero)) (fsub (nth i xs fzero) (nth j xs fzero)))
             (seq 0 (length xs))).

(** the sample lies on a polynomial with at most |prev| coefficients through
    the samples [prev] *)
Definition on_previous (prev : list (Fq * Fq)) (s : Fq * Fq) : Prop :=
  exists c, (length c <= length prev)%nat /\
    (forall s', In s' prev -> spec_eval c (fst s') = snd s') /\ spec_eval c (fst s) = snd s.

(** when Newton interpolation that rescales its basis polynomial by the divided
    difference can go on: distinct abscissae and no degenerate sample strictly
    between the first and the last *)
Definition newton_possible (ss : list (Fq * Fq)) : Prop :=
  NoDup (map fst ss) /\
  forall prev s post, ss = prev ++ s :: post -> prev <> [] -> post <> [] -> ~ on_previous prev s.

Definition passes_through (c : list Fq) (ss : list (Fq * Fq)) : Prop :=
  forall s, In s ss -> spec_eval c (fst s) = snd s.
