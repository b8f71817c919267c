(** What a random oracle is supposed to hold after a sequence of additions:
    for each name the first well-formed value added under it. *)
From Coq Require Import ZArith List Bool.
From Verif Require Import Base.
Import ListNotations.
Open Scope Z_scope.

(** one call: name, data, type tag *)
Definition call : Type := (bytes * bytes * Z)%type.

Definition call_wf (c : call) : bool :=
  let '(n, d, _) := c in (1 <=? blen n) && (blen n <=? 255) && (blen d <=? 255).

Fixpoint content (l : list call) (n : bytes) : option (bytes * Z) :=
  match l with
  | [] => None
  | (m, d, t) :: l =>
    if bytes_eqb m n && call_wf (m, d, t) then Some (d, t) else content l n
  end.
