(** ro/ro.go:64-71 AddPoints. *)
From Coq Require Import ZArith List String.
From Verif Require Import Base ModelScalar ModelXmd ModelRo ModelGroup ModelComplaint.
Import ListNotations.
Open Scope Z_scope.

Section RoPoints.
Context {GO : Grp}.

(** fmt.Sprintf("%s[%d]", name, i) at ro/ro.go:66 *)
Definition indexed_name (name : bytes) (i : Z) : bytes := name ++ str "[" ++ decimal i ++ str "]".

(** ro/ro.go:59-62 AddPoint with the error kept *)
Definition ro_add_point (r : ro) (name : bytes) (a : G) : ro * bool := ro_add_input r name (ser_tagged a) ty_point.

(** ro/ro.go:64-71 AddPoints from index i on: the oracle as the call leaves it
    and whether the error is nil; the loop stops at the first error *)
Fixpoint ro_add_points_from (i : Z) (r : ro) (name : bytes) (pts : list G) : ro * bool :=
  match pts with
  | [] => (r, true)
  | a :: pts =>
    match ro_add_point r (indexed_name name i) a with
    | (r, true) => ro_add_points_from (i + 1) r name pts
    | (r, false) => (r, false)
    end
  end.
(** ro/ro.go:64-71 AddPoints *)
Definition ro_add_points (r : ro) (name : bytes) (pts : list G) : ro * bool := ro_add_points_from 0 r name pts.
End RoPoints.
