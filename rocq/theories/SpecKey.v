(** Reference notions for key derivation, independent of the code.
    (No code of /repo is modelled here.) *)
From Coq Require Import ZArith List.
From Verif Require Import Base Zmod Fields ModelScalar ModelXmd ModelRo ModelGroup.
Import ListNotations.
Open Scope Z_scope.

Section Spec.
Context {X : Oracles} {GO : Grp}.
(** BIP32 CKDpub: I = HMAC-SHA512(c, serP(K) || i), split into I_L and I_R *)
Definition spec_L (k : G) (c i : bytes) : Z := be_val (firstn 32 (hmac512 c (ser k ++ i))).
Definition spec_R (k : G) (c i : bytes) : bytes := skipn 32 (hmac512 c (ser k ++ i)).
Definition spec_child_key (k : G) (c i : bytes) : G := gadd k (smul (of_Z q (spec_L k c i)) genG).
(** "In case parse256(IL) >= n or Ki is the point at infinity, the resulting
    key is invalid, and one should proceed with the next value for i." *)
Definition spec_valid (k : G) (c i : bytes) : Prop := spec_L k c i < q /\ spec_child_key k c i <> gzero.
Inductive bip32_child (next : bytes -> bytes) (k : G) (c : bytes) : bytes -> G -> bytes -> Prop :=
| bip32_here i : spec_valid k c i -> bip32_child next k c i (spec_child_key k c i) (spec_R k c i)
| bip32_next i k' c' : ~ spec_valid k c i -> bip32_child next k c (next i) k' c' -> bip32_child next k c i k' c'.
(** BIP32: "ser32(i): serialize a 32-bit unsigned integer i as a 4-byte
    sequence, most significant byte first" *)
Definition ser32 (n : Z) : bytes := [n / 16777216; n / 65536 mod 256; n / 256 mod 256; n mod 256].
(** a chain of children without regard to validity: key, chain key and the sum
    of the offsets *)
Fixpoint spec_chain (pa : list bytes) (k : G) (c : bytes) : G * bytes * Z :=
  match pa with
  | [] => (k, c, 0)
  | i :: pa => let '(k', c', o) := spec_chain pa (spec_child_key k c i) (spec_R k c i) in (k', c', spec_L k c i + o)
  end.
End Spec.
