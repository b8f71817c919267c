(** What a dealer who can answer two challenges for one first message gives
    away (the output of the forking argument), in terms of points and scalars
    only. *)
From Coq Require Import ZArith List.
From Verif Require Import Base Zmod Fields ModelGroup.
Import ListNotations.
Open Scope Z_scope.

Section Spec.
Context {GO : Grp}.
(** two answers [(c, z)] and [(c', z')], to different challenges, for one
    first message of the proof that [a] and [b] differ by a multiple of H *)
Definition forked1 (a b : G) (w : (Fq * Fq) * (Fq * Fq)) : Prop :=
  let '((c, z), (c', z')) := w in
  c <> c' /\ gsub (smul z genH) (smul c (gsub a b)) = gsub (smul z' genH) (smul c' (gsub a b)).
(** the same for the proof that [pr] commits to the product of what [l] and
    [r] commit to *)
Definition forked2 (l r pr : G) (w : (Fq * Fq * Fq) * (Fq * Fq * Fq)) : Prop :=
  let '((c, z1, z2), (c', z1', z2')) := w in
  c <> c' /\ gsub (smul z1 genG) (smul c l) = gsub (smul z1' genG) (smul c' l) /\
  gsub (gadd (smul z1 r) (smul z2 genH)) (smul c pr) = gsub (gadd (smul z1' r) (smul z2' genH)) (smul c' pr).
(** the multiple of H computed from the two answers *)
Definition mask_of1 (w : (Fq * Fq) * (Fq * Fq)) : Fq :=
  let '((c, z), (c', z')) := w in fdiv (fsub z z') (fsub c c').
Definition mask_of2 (w : (Fq * Fq * Fq) * (Fq * Fq * Fq)) : Fq :=
  let '((c, _, z2), (c', _, z2')) := w in fdiv (fsub z2 z2') (fsub c c').
(** two different ways to write one point as v G + m H give the discrete
    logarithm of H *)
Definition log_found (v m v' m' : Fq) : Prop :=
  m <> m' /\ genH = smul (fdiv (fsub v v') (fsub m' m)) genG.
End Spec.
