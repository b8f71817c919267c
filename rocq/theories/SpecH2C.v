(** RFC 9380: hash_to_curve for the suite secp256k1_XMD:SHA-256_SSWU_RO_,
    stated on its own over the field of integers modulo p. *)
From Coq Require Import ZArith Lia Bool String List.
From Verif Require Import Base Zmod Fields SpecXmd.
Import ListNotations.
Open Scope Z_scope.

Local Notation "a +' b" := (fadd a b) (at level 50, left associativity).
Local Notation "a *' b" := (fmul a b) (at level 40, left associativity).
Local Notation c := (of_Z p).

(** section 8.7: the curve E' : y^2 = x^3 + A' x + B' and Z = -11 *)
Definition iso_A : Fp := c 0x3f8731abdd661adca08a5558f0f5d272e953d363cb6f0e5d405447c01a444533.
Definition iso_B : Fp := c 1771.
Definition sswu_Z : Fp := c (-11).
Definition iso_g (x : Fp) : Fp := x *' x *' x +' iso_A *' x +' iso_B.
(** section 4.1 *)
Definition sgn0 (a : Fp) : Z := fv a mod 2.
Definition square (a : Fp) : Prop := exists r : Fp, r *' r = a.

(** section 6.6.2, the x-coordinates tried *)
Definition sswu_x1 (u : Fp) : Fp :=
  let t := sswu_Z *' sswu_Z *' (u *' u *' u *' u) +' sswu_Z *' (u *' u) in
  if feqb t fzero then fdiv iso_B (sswu_Z *' iso_A)
  else fdiv (fneg iso_B) iso_A *' (fone +' finv t).
Definition sswu_x2 (u : Fp) : Fp := sswu_Z *' (u *' u) *' sswu_x1 u.
(** section 6.6.2: the result for u *)
Definition rfc_sswu (u x y : Fp) : Prop :=
  (square (iso_g (sswu_x1 u)) /\ x = sswu_x1 u \/ ~ square (iso_g (sswu_x1 u)) /\ x = sswu_x2 u) /\
  y *' y = iso_g x /\ sgn0 y = sgn0 u.

(** appendix E.1: the 3-isogeny from E' to secp256k1 *)
Definition poly3 (a0 a1 a2 a3 x : Fp) : Fp := a0 +' a1 *' x +' a2 *' (x *' x) +' a3 *' (x *' x *' x).
Definition iso_xnum := poly3
  (c 0x8e38e38e38e38e38e38e38e38e38e38e38e38e38e38e38e38e38e38daaaaa8c7)
  (c 0x07d3d4c80bc321d5b9f315cea7fd44c5d595d2fc0bf63b92dfff1044f17c6581)
  (c 0x534c328d23f234e6e2a413deca25caece4506144037c40314ecbd0b53d9dd262)
  (c 0x8e38e38e38e38e38e38e38e38e38e38e38e38e38e38e38e38e38e38daaaaa88c).
Definition iso_xden := poly3
  (c 0xd35771193d94918a9ca34ccbb7b640dd86cd409542f8487d9fe6b745781eb49b)
  (c 0xedadc6f64383dc1df7c4b2d51b54225406d36b641f5e41bbc52a56612a8c6d14)
  fone fzero.
Definition iso_ynum := poly3
  (c 0x4bda12f684bda12f684bda12f684bda12f684bda12f684bda12f684b8e38e23c)
  (c 0xc75e0c32d5cb7c0fa9d0a54b12a0a6d5647ab046d686da6fdffc90fc201d71a3)
  (c 0x29a6194691f91a73715209ef6512e576722830a201be2018a765e85a9ecee931)
  (c 0x2f684bda12f684bda12f684bda12f684bda12f684bda12f684bda12f38e38d84).
Definition iso_yden := poly3
  (c 0xfffffffffffffffffffffffffffffffffffffffffffffffffffffffefffff93b)
  (c 0x7a06534bb8bdb49fd5e9e6632722c2989467c1bfc8e8d978dfb425d2685c2573)
  (c 0x6484aa716545ca2cf3a70c3fa8fe337e0a3d21162f0d6299a7bf8192bfd2a76f)
  fone.
(** section 6.6.3: the image of u on secp256k1 *)
Definition rfc_map (u x y : Fp) : Prop :=
  exists x' y', rfc_sswu u x' y' /\
    iso_xden x' <> fzero /\ iso_yden x' <> fzero /\
    x = fdiv (iso_xnum x') (iso_xden x') /\ y = fdiv (y' *' iso_ynum x') (iso_yden x').

(** section 5.2: the i-th element of hash_to_field, L = 48, count = 2 *)
Definition rfc_field (uniform : bytes) (i : nat) : Fp :=
  of_Z p (be_val (firstn 48 (skipn (48 * i) uniform))).
