(** The curve y^2 = x^3 + 7 and the SEC 1 compressed encoding, stated on their
    own. *)
From Coq Require Import ZArith Lia Bool String List.
From Verif Require Import Base Zmod Fields.
Import ListNotations.
Open Scope Z_scope.

(** a pair of coordinates satisfies the equation; [None] is the point at
    infinity *)
Definition on_curve (a : option (Fp * Fp)) : Prop :=
  match a with
  | None => True
  | Some (x, y) => (fv y ^ 2) mod p = (fv x ^ 3 + 7) mod p
  end.

(** SEC 1 section 2.3.3 compressed form, with 33 zero bytes for infinity *)
Definition sec1 (a : option (Fp * Fp)) : bytes :=
  match a with
  | None => repeat 0 33
  | Some (x, y) => (if Z.odd (fv y) then 3 else 2) :: be_bytes 32 (fv x)
  end.
