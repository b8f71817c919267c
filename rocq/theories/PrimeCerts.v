(** Primality of the secp256k1 group order and field modulus, by recursive
    Pocklington certificates. *)
From Coq Require Import ZArith Znumtheory Lia List Bool.
From Verif Require Import Zmod Pocklington.
Import ListNotations.
Open Scope Z_scope.
Create HintDb primes.

Lemma prime_1627771 : prime 1627771.
Proof. apply (trial_prime _ 1500); [lia|vm_compute; reflexivity]. Qed.
#[global] Hint Resolve prime_1627771 : primes.

Lemma prime_297159362677 : prime 297159362677.
Proof.
  apply (pocklington _ [(1627771, 2)]); [vm_compute; reflexivity | |].
  - repeat constructor; simpl; intuition discriminate.
  - simpl; intros f H; intuition (subst; auto with primes).
Qed.
#[global] Hint Resolve prime_297159362677 : primes.

Lemma prime_28181 : prime 28181.
Proof. apply (trial_prime _ 1500); [lia|vm_compute; reflexivity]. Qed.
#[global] Hint Resolve prime_28181 : primes.

Lemma prime_545358713 : prime 545358713.
Proof.
  apply (pocklington _ [(28181, 2)]); [vm_compute; reflexivity | |].
  - repeat constructor; simpl; intuition discriminate.
  - simpl; intros f H; intuition (subst; auto with primes).
Qed.
#[global] Hint Resolve prime_545358713 : primes.

Lemma prime_29047611873442575647497758179 : prime 29047611873442575647497758179.
Proof.
  apply (pocklington _ [(297159362677, 2); (545358713, 2)]); [vm_compute; reflexivity | |].
  - repeat constructor; simpl; intuition discriminate.
  - simpl; intros f H; intuition (subst; auto with primes).
Qed.
#[global] Hint Resolve prime_29047611873442575647497758179 : primes.

Lemma prime_b109 : prime 341948486974166000522343609283189.
Proof.
  apply (pocklington _ [(29047611873442575647497758179, 2)]); [vm_compute; reflexivity | |].
  - repeat constructor; simpl; intuition discriminate.
  - simpl; intros f H; intuition (subst; auto with primes).
Qed.
#[global] Hint Resolve prime_b109 : primes.

Lemma prime_9349 : prime 9349.
Proof. apply (trial_prime _ 1500); [lia|vm_compute; reflexivity]. Qed.
#[global] Hint Resolve prime_9349 : primes.

Lemma prime_44706919 : prime 44706919.
Proof.
  apply (pocklington _ [(9349, 2)]); [vm_compute; reflexivity | |].
  - repeat constructor; simpl; intuition discriminate.
  - simpl; intros f H; intuition (subst; auto with primes).
Qed.
#[global] Hint Resolve prime_44706919 : primes.

Lemma prime_120233 : prime 120233.
Proof. apply (trial_prime _ 1500); [lia|vm_compute; reflexivity]. Qed.
#[global] Hint Resolve prime_120233 : primes.

Lemma prime_174723607534414371449 : prime 174723607534414371449.
Proof.
  apply (pocklington _ [(44706919, 2); (120233, 2)]); [vm_compute; reflexivity | |].
  - repeat constructor; simpl; intuition discriminate.
  - simpl; intros f H; intuition (subst; auto with primes).
Qed.
#[global] Hint Resolve prime_174723607534414371449 : primes.

Lemma prime_q : prime 115792089237316195423570985008687907852837564279074904382605163141518161494337.
Proof.
  apply (pocklington _ [(341948486974166000522343609283189, 2); (174723607534414371449, 2)]); [vm_compute; reflexivity | |].
  - repeat constructor; simpl; intuition discriminate.
  - simpl; intros f H; intuition (subst; auto with primes).
Qed.
#[global] Hint Resolve prime_q : primes.

Lemma prime_53 : prime 53.
Proof. apply (trial_prime _ 1500); [lia|vm_compute; reflexivity]. Qed.
#[global] Hint Resolve prime_53 : primes.

Lemma prime_29 : prime 29.
Proof. apply (trial_prime _ 1500); [lia|vm_compute; reflexivity]. Qed.
#[global] Hint Resolve prime_29 : primes.

Lemma prime_7 : prime 7.
Proof. apply (trial_prime _ 1500); [lia|vm_compute; reflexivity]. Qed.
#[global] Hint Resolve prime_7 : primes.

Lemma prime_107590001 : prime 107590001.
Proof.
  apply (pocklington _ [(53, 2); (29, 2); (7, 2)]); [vm_compute; reflexivity | |].
  - repeat constructor; simpl; intuition discriminate.
  - simpl; intros f H; intuition (subst; auto with primes).
Qed.
#[global] Hint Resolve prime_107590001 : primes.

Lemma prime_1206781 : prime 1206781.
Proof. apply (trial_prime _ 1500); [lia|vm_compute; reflexivity]. Qed.
#[global] Hint Resolve prime_1206781 : primes.

Lemma prime_7240687 : prime 7240687.
Proof.
  apply (pocklington _ [(1206781, 2)]); [vm_compute; reflexivity | |].
  - repeat constructor; simpl; intuition discriminate.
  - simpl; intros f H; intuition (subst; auto with primes).
Qed.
#[global] Hint Resolve prime_7240687 : primes.

Lemma prime_96557 : prime 96557.
Proof. apply (trial_prime _ 1500); [lia|vm_compute; reflexivity]. Qed.
#[global] Hint Resolve prime_96557 : primes.

Lemma prime_b128 : prime 255515944373312847190720520512484175977.
Proof.
  apply (pocklington _ [(107590001, 2); (7240687, 2); (96557, 2)]); [vm_compute; reflexivity | |].
  - repeat constructor; simpl; intuition discriminate.
  - simpl; intros f H; intuition (subst; auto with primes).
Qed.
#[global] Hint Resolve prime_b128 : primes.

Lemma prime_b237 : prime 205115282021455665897114700593932402728804164701536103180137503955397371.
Proof.
  apply (pocklington _ [(255515944373312847190720520512484175977, 2)]); [vm_compute; reflexivity | |].
  - repeat constructor; simpl; intuition discriminate.
  - simpl; intros f H; intuition (subst; auto with primes).
Qed.
#[global] Hint Resolve prime_b237 : primes.

Lemma prime_p : prime 115792089237316195423570985008687907853269984665640564039457584007908834671663.
Proof.
  apply (pocklington _ [(205115282021455665897114700593932402728804164701536103180137503955397371, 2)]); [vm_compute; reflexivity | |].
  - repeat constructor; simpl; intuition discriminate.
  - simpl; intros f H; intuition (subst; auto with primes).
Qed.
#[global] Hint Resolve prime_p : primes.

